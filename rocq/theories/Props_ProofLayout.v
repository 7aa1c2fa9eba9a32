(** C116, C117: the public input of the recursive verifier. *)
From Coq Require Import ZArith List Lia Bool.
From Verif Require Import Base Field Plonk PlonkFacts Examples FlexModel VerifierModel VerifierSpec VerifierWalk VerifierProofs
  Props_Flex Props_Verifier PoseidonModel VerifierSteps ProofLayoutModel ProofLayoutProofs.
Import ListNotations.
Open Scope Z_scope.

(** The proof has the shape the parameters announce. *)
Definition fits {P} (I : pinfo) (pf : pproof P) : Prop :=
  pi_lookups I = (match pp_lookup pf with Some _ => true | None => false end) /\
  zlen (concat (concat (pp_z pf))) = pi_zs I /\ zlen (pp_roots pf) = pi_r I /\ zlen (pp_queries pf) = pi_lam I /\
  forall q, In q (pp_queries pf) ->
    zlen (concat (map pb_vals (pq_init q))) = pi_polys I /\ zlen (pq_init q) = pi_batches I /\ 1 <= pi_batches I /\
    (forall b, In b (pq_init q) -> zlen (pb_path b) = pi_m I) /\
    zlen (pq_rounds q) = pi_r I /\ zlen (concat (map pd_path (pq_rounds q))) = pi_layers I.
(** The first public input column starts with the values of the wrapper. *)
Definition public_is {P} (T : table P) (pf : pproof P) : Prop :=
  forall i, 0 <= i < zlen (pw_vector pf) -> T CPub 0 i = znth f0 (pw_vector pf) i.

(** The members of a proof. *)
Definition comms {P} (pf : pproof P) : list (F P) :=
  let '(a, b, d) := pp_comm pf in a :: b :: d :: match pp_lookup pf with Some x => [x] | None => [] end.
Definition flat2 {P} (l : list (F P * F P)) : list (F P) := concat (map (fun v => [fst v; snd v]) l).
Definition positions {P} (q : pquery P) : list (F P) := match pq_init q with [] => [] | b :: _ => map fst (pb_path b) end.

Section Facts.
Variable P : params.
Notation F := (F P).

Lemma comms_pw : forall pf : pproof P, pw_comms pf = comms pf.
Proof. intros pf. unfold pw_comms, comms. destruct (pp_comm pf) as [[a b] d]. destruct (pp_lookup pf); reflexivity. Qed.
Lemma zl_flat2 : forall l : list (F * F), zlen (flat2 l) = 2 * zlen l.
Proof.
  induction l as [|x l IH]; [reflexivity|]. unfold flat2 in *. cbn [map concat app]. rewrite !zlen_cons, IH. lia.
Qed.
Lemma flat2_app : forall a b : list (F * F), flat2 (a ++ b) = flat2 a ++ flat2 b.
Proof. intros a b. unfold flat2. rewrite map_app, concat_app. reflexivity. Qed.
Lemma flat2_nth : forall (l : list (F * F)) t, 0 <= t < zlen l ->
  znth f0 (flat2 l) (2 * t) = fst (znth (f0, f0) l t) /\ znth f0 (flat2 l) (2 * t + 1) = snd (znth (f0, f0) l t).
Proof.
  induction l as [|x l IH]; intros t Ht; [change (zlen (@nil (F * F))) with 0 in Ht; lia|]. rewrite zlen_cons in Ht.
  change (flat2 (x :: l)) with (fst x :: snd x :: flat2 l). destruct (Z.eq_dec t 0) as [->|NT]; [split; reflexivity|].
  destruct (IH (t - 1) ltac:(lia)) as [A B].
  replace (2 * t) with (2 * (t - 1) + 1 + 1) by lia. replace t with (t - 1 + 1) at 2 by lia.
  rewrite (znth_consS _ _ x) by lia. split.
  - rewrite !znth_consS by lia. exact A.
  - rewrite !znth_consS by lia. replace t with (t - 1 + 1) at 2 by lia. rewrite znth_consS by lia. exact B.
Qed.
Lemma pw_vals_eq : forall q : pquery P, pw_vals q = concat (map (fun b => flat2 (pb_vals b)) (pq_init q)).
Proof. intros q. unfold pw_vals. rewrite flat_map_concat_map. apply f_equal, map_ext. intros b. unfold flat2. apply flat_map_concat_map. Qed.
Lemma pw_vals_flat : forall q : pquery P, pw_vals q = flat2 (concat (map pb_vals (pq_init q))).
Proof.
  intros q. rewrite pw_vals_eq. induction (pq_init q) as [|b l IH]; [reflexivity|]. cbn [map concat]. rewrite flat2_app, IH. reflexivity.
Qed.
Lemma pw_hashes_eq : forall q : pquery P, pw_hashes q = concat (map (fun b => map snd (pb_path b)) (pq_init q)).
Proof. intros q. unfold pw_hashes. apply flat_map_concat_map. Qed.
Lemma pw_rvals_eq : forall q : pquery P, pw_rvals q = flat2 (map (fun d => (pd_y0 d, pd_y1 d)) (pq_rounds q)).
Proof. intros q. unfold pw_rvals, flat2. rewrite map_map, flat_map_concat_map. reflexivity. Qed.
Lemma pw_rhashes_eq : forall q : pquery P, pw_rhashes q = concat (map pd_path (pq_rounds q)).
Proof. intros q. unfold pw_rhashes. apply flat_map_concat_map. Qed.
Lemma zl_concat_const : forall A B (g : A -> list B) l n, (forall x, In x l -> zlen (g x) = n) -> zlen (concat (map g l)) = zlen l * n.
Proof.
  intros A B g l n. induction l as [|x l IH]; intros K; [reflexivity|]. cbn [map concat]. rewrite zl_app, zlen_cons, IH, (K x).
  - lia.
  - left; reflexivity.
  - intros y Hy. apply K. right. exact Hy.
Qed.

Lemma fits_q : forall I (pf : pproof P), fits I pf -> forall q, In q (pp_queries pf) -> q_fits P I q.
Proof.
  intros I pf [_ [_ [_ [_ HQ]]]] q Hq. destruct (HQ q Hq) as [A [B [B1 [D [E G]]]]]. unfold q_fits.
  split; [rewrite pw_vals_flat, zl_flat2, A; reflexivity|].
  split. { unfold pw_pos. destruct (pq_init q) as [|b l]; [change (zlen (@nil (pbatch P))) with 0 in B; lia|]. rewrite zl_map. apply D. left. reflexivity. }
  split. { rewrite pw_hashes_eq, (zl_concat_const _ _ _ _ (pi_m I)); [rewrite B; reflexivity|]. intros b Hb. rewrite zl_map. apply D. exact Hb. }
  split; [rewrite pw_rvals_eq, zl_flat2, zl_map, E; reflexivity|]. rewrite pw_rhashes_eq. exact G.
Qed.
Lemma zl_comms : forall I (pf : pproof P), fits I pf -> zlen (comms pf) = pi_ncomm I.
Proof.
  intros I pf [L _]. unfold comms, pi_ncomm. rewrite L. destruct (pp_comm pf) as [[a b] d]. destruct (pp_lookup pf); reflexivity.
Qed.

(** Reading of the variables. *)
Lemma layout_all : forall I (pf : pproof P) T, fits I pf -> public_is T pf ->
  map (vval T) (vi_comms (pi_input I)) = comms pf /\ vval T (vi_chal (pi_input I)) = pp_chal pf /\
  map (vval T) (vi_roots (pi_input I)) = pp_roots pf /\
  map (ev5 P T) (pi_queries I (length (pp_queries pf)) (pi_ncomm I + 1 + pi_zs I + pi_r I)) = map (pw5 P) (pp_queries pf) /\
  Z.to_nat (pi_lam I) = length (pp_queries pf).
Proof.
  intros I pf T HF HP. pose proof (zl_comms I pf HF) as LC. pose proof (fits_q I pf HF) as FQ. destruct HF as [HL [HZ [HR [HQ _]]]].
  unfold pi_input. cbn [vi_comms vi_chal vi_roots].
  assert (EV : pw_vector pf = comms pf ++ [pp_chal pf] ++ concat (concat (pp_z pf)) ++ pp_roots pf ++ flat_map pw_query (pp_queries pf) ++ pp_final pf)
    by (unfold pw_vector; rewrite comms_pw; reflexivity).
  split. { apply (slice P T (pw_vector pf) HP (comms pf) [] ([pp_chal pf] ++ concat (concat (pp_z pf)) ++ pp_roots pf ++ flat_map pw_query (pp_queries pf) ++ pp_final pf)); [exact EV|reflexivity|exact LC]. }
  split. { pose proof (slice P T (pw_vector pf) HP [pp_chal pf] (comms pf) (concat (concat (pp_z pf)) ++ pp_roots pf ++ flat_map pw_query (pp_queries pf) ++ pp_final pf)
      (pi_ncomm I) 1 EV LC eq_refl) as K. unfold pvars in K. rewrite zseq_cons, zseq_nil in K by lia. cbn [map] in K. injection K as K. exact K. }
  split. { apply (slice P T (pw_vector pf) HP (pp_roots pf) (comms pf ++ [pp_chal pf] ++ concat (concat (pp_z pf))) (flat_map pw_query (pp_queries pf) ++ pp_final pf)).
    - rewrite EV, <- !app_assoc. reflexivity.
    - rewrite !zl_app, LC, HZ. change (zlen [pp_chal pf]) with 1. lia.
    - exact HR. }
  split; [|unfold zlen in HQ; lia].
  apply (queries_read P T (pw_vector pf) HP I (pp_queries pf) (comms pf ++ [pp_chal pf] ++ concat (concat (pp_z pf)) ++ pp_roots pf) (pp_final pf)).
  - rewrite EV, <- !app_assoc. reflexivity.
  - rewrite !zl_app, LC, HZ, HR. change (zlen [pp_chal pf]) with 1. lia.
  - exact FQ.
Qed.
End Facts.

(** Each variable the verifier gets has the value of the member of the proof it
    stands for. *)
Theorem proof_layout : forall P I (pf : pproof P) T, fits I pf -> public_is T pf ->
  let v := pi_input I in
  map (vval T) (vi_comms v) = comms pf /\ vval T (vi_chal v) = pp_chal pf /\ map (vval T) (vi_roots v) = pp_roots pf /\
  map (map (vval T)) (vi_pos v) = map positions (pp_queries pf) /\
  map (map (vval T)) (vi_vals v) = map (fun q => flat2 (concat (map pb_vals (pq_init q)))) (pp_queries pf) /\
  map (map (vval T)) (vi_hashes v) = map (fun q => concat (map (fun b => map snd (pb_path b)) (pq_init q))) (pp_queries pf) /\
  map (map (vval T)) (vi_rvals v) = map (fun q => flat2 (map (fun d => (pd_y0 d, pd_y1 d)) (pq_rounds q))) (pp_queries pf) /\
  map (map (vval T)) (vi_rhashes v) = map (fun q => concat (map pd_path (pq_rounds q))) (pp_queries pf).
Proof.
  intros P I pf T HF HP v. destruct (layout_all P I pf T HF HP) as [A [B [D [E EL]]]].
  split; [exact A|]. split; [exact B|]. split; [exact D|].
  unfold v, pi_input. cbn [vi_pos vi_vals vi_hashes vi_rvals vi_rhashes]. rewrite EL.
  set (qs := pi_queries I (length (pp_queries pf)) (pi_ncomm I + 1 + pi_zs I + pi_r I)) in *.
  assert (S : forall (sv : list var * list var * list var * list var * list var -> list var)
                     (sf : list (F P) * list (F P) * list (F P) * list (F P) * list (F P) -> list (F P)) (g : pquery P -> list (F P)),
     (forall x, sf (ev5 P T x) = map (vval T) (sv x)) -> (forall q, sf (pw5 P q) = g q) ->
     map (map (vval T)) (map sv qs) = map g (pp_queries pf)).
  { intros sv sf g H1 H2. rewrite map_map. apply (f_equal (map sf)) in E. rewrite !map_map in E.
    rewrite (map_ext _ _ (fun x => eq_sym (H1 x))). rewrite E. apply map_ext. exact H2. }
  split; [apply (S _ (fun x => snd (fst (fst (fst x))))); [intros [[[[x1 x2] x3] x4] x5]; reflexivity|reflexivity]|].
  split; [apply (S _ (fun x => fst (fst (fst (fst x))))); [intros [[[[x1 x2] x3] x4] x5]; reflexivity|intros q; apply pw_vals_flat]|].
  split; [apply (S _ (fun x => snd (fst (fst x)))); [intros [[[[x1 x2] x3] x4] x5]; reflexivity|intros q; apply pw_hashes_eq]|].
  split; [apply (S _ (fun x => snd (fst x))); [intros [[[[x1 x2] x3] x4] x5]; reflexivity|intros q; apply pw_rvals_eq]|].
  apply (S _ snd); [intros [[[[x1 x2] x3] x4] x5]; reflexivity|intros q; apply pw_rhashes_eq].
Qed.
Print Assumptions proof_layout.

(** The two vectors have the same length, and each variable its value. *)
Theorem proof_vectors : forall P I (pf : pproof P) T, fits I pf -> zlen (pp_final pf) = pi_final I -> public_is T pf ->
  map (vval T) (pi_vector I) = pw_vector pf.
Proof.
  intros P I pf T HF HE HP. unfold pi_vector. apply (slice P T (pw_vector pf) HP (pw_vector pf) [] []).
  - rewrite app_nil_r. reflexivity.
  - reflexivity.
  - unfold pw_vector. rewrite !zl_app, comms_pw, (zl_comms P I pf HF). change (zlen [pp_chal pf]) with 1.
    pose proof (fits_q P I pf HF) as FQ. destruct HF as [_ [HZ [HR [HQ _]]]]. rewrite HZ, HR, HE.
    rewrite flat_map_concat_map, (zl_concat_const _ _ _ _ (pi_qsize I)); [rewrite HQ; lia|].
    intros q Hq. destruct (FQ q Hq) as [L1 [L2 [L3 [L4 L5]]]]. unfold pw_query, pi_qsize. rewrite !zl_app. lia.
Qed.
Print Assumptions proof_vectors.

(** ** The verifier on a proof *)

(** What is checked of a proof, in terms of its members: the paths of all batches
    and rounds take the positions of the first batch. *)
Definition proof_ok {P} (H : F P -> F P -> F P -> F P) (vk0 vk1 : F P) (pf : pproof P) : Prop :=
  (let '(a, b, d) := pp_comm pf in
   absorb H f0 ([(vk0, vk1); (a, f0); (f0, f0); (b, f0)] ++ repeat (f0, f0) 8 ++ [(d, f0)]) = pp_chal pf) /\
  forall q, In q (pp_queries pf) ->
    (forall j, 0 <= j < zlen (pq_init q) -> forall b, b = znth (mkPb [] []) (pq_init q) j ->
       opens H (absorb H f0 (pb_vals b)) (combine (positions q) (map snd (pb_path b))) (if j =? 0 then vk1 else znth f0 (comms pf) (j - 1))) /\
    (forall j, 1 <= j < zlen (pq_rounds q) -> forall y d, y = znth (mkPrd f0 f0 []) (pq_rounds q) (j - 1) -> d = znth (mkPrd f0 f0 []) (pq_rounds q) j ->
       opens H (H f0 (pd_y0 y) (pd_y1 y)) (combine (positions q) (pd_path d)) (znth f0 (pp_roots pf) j)).

(** The verifier's parameters are those of the proof. *)
Definition params_match {P} (vp : vparams P) (I : pinfo) (pf : pproof P) : Prop :=
  vp_lam vp = pi_lam I /\ vp_r vp = pi_r I /\ vp_m vp = pi_m I /\ zlen (vp_sizes vp) = pi_batches I /\ pi_batches I <= pi_ncomm I + 1 /\
  forall q, In q (pp_queries pf) ->
    (forall j, 0 <= j < pi_batches I -> zlen (pb_vals (znth (mkPb [] []) (pq_init q) j)) = znth 0 (vp_sizes vp) j) /\
    (forall j, 0 <= j < pi_r I -> zlen (pd_path (znth (mkPrd f0 f0 []) (pq_rounds q) j)) = pi_m I - j).

Lemma znth_combine : forall P (a b : list (F P)) t, 0 <= t < zlen a -> t < zlen b ->
  znth (f0, f0) (combine a b) t = (znth f0 a t, znth f0 b t).
Proof.
  intros P. induction a as [|x a IH]; intros b t Ha Hb; [change (zlen (@nil (F P))) with 0 in Ha; lia|].
  destruct b as [|y b]; [change (zlen (@nil (F P))) with 0 in Hb; lia|]. rewrite zlen_cons in *. cbn [combine].
  destruct (Z.eq_dec t 0) as [->|NT]; [reflexivity|]. replace t with (t - 1 + 1) by lia. rewrite !znth_consS by lia. apply IH; lia.
Qed.
Lemma zl_combine : forall P (a b : list (F P)), zlen b <= zlen a -> zlen (combine a b) = zlen b.
Proof. intros P a b H. unfold zlen in *. rewrite combine_length. lia. Qed.
Lemma v2_val : forall P (T : table P) l L i j, map (map (vval T)) l = L -> 0 <= i < zlen L -> 0 <= j < zlen (znth [] L i) ->
  vval T (v2 l i j) = znth f0 (znth [] L i) j.
Proof.
  intros P T l L i j <- Hi Hj. rewrite zl_map in Hi. unfold v2. rewrite (znth_map _ _ (map (vval T)) [] l i Hi) in *.
  rewrite zl_map in Hj. rewrite (znth_map _ _ (vval T) dv _ j Hj). reflexivity.
Qed.
Lemma v1_val : forall P (T : table P) l L j, map (vval T) l = L -> 0 <= j < zlen L -> vval T (znth dv l j) = znth f0 L j.
Proof. intros P T l L j <- Hj. rewrite zl_map in Hj. rewrite (znth_map _ _ (vval T) dv l j Hj). reflexivity. Qed.
Lemma lsum_const : forall m j, 0 <= j -> lsum (fun _ => m) (zseq 0 j) = m * j.
Proof.
  intros m j Hj. replace j with (zlen (zseq 0 j)) at 2 by (apply zlen_zseq0; exact Hj). generalize (zseq 0 j). intros l.
  induction l as [|x l IH]; [change (zlen (@nil Z)) with 0; cbn [lsum]; lia|]. cbn [lsum]. rewrite zlen_cons, IH. lia.
Qed.
Lemma zl_concat_lsum : forall A (ls : list (list A)) f, (forall q, 0 <= q < zlen ls -> zlen (znth [] ls q) = f q) ->
  zlen (concat ls) = lsum f (zseq 0 (zlen ls)).
Proof.
  intros A ls. induction ls as [|l ls IH] using rev_ind; intros f K; [reflexivity|]. pose proof (zlen_nonneg _ ls) as N.
  rewrite concat_app. cbn [concat]. rewrite app_nil_r, !zl_app in *. change (zlen [l]) with 1 in *.
  rewrite lsum_snoc by lia. rewrite (IH f).
  - f_equal. rewrite <- K by lia. f_equal. rewrite <- (Z.add_0_r (zlen ls)). rewrite znth_app2 by lia. reflexivity.
  - intros q Hq. rewrite <- K by lia. rewrite znth_app1 by lia. reflexivity.
Qed.
Lemma in_znth : forall A (d : A) l x, In x l -> exists i, 0 <= i < zlen l /\ znth d l i = x.
Proof.
  intros A d l x Hx. apply (In_nth _ _ d) in Hx as [k [Hk E]]. exists (Z.of_nat k). unfold zlen, znth. rewrite Nat2Z.id. split; [lia|exact E].
Qed.
Lemma znth_in : forall A (d : A) l i, 0 <= i < zlen l -> In (znth d l i) l.
Proof. intros A d l i Hi. unfold znth, zlen in *. apply nth_In. lia. Qed.
Lemma opens_iff : forall P (H : F P -> F P -> F P -> F P) h1 h2 l1 l2 r1 r2, h1 = h2 -> l1 = l2 -> r1 = r2 -> (opens H h1 l1 r1 <-> opens H h2 l2 r2).
Proof. intros; subst; tauto. Qed.

Section Checks.
Variable P : params.
Variable H : F P -> F P -> F P -> F P.
Variable I : pinfo.
Variable pf : pproof P.
Variable T : table P.
Variable vp : vparams P.
Hypothesis HF : fits I pf.
Hypothesis HP : public_is T pf.
Hypothesis HV : vp_ok vp.
Hypothesis HM : params_match vp I pf.
Notation inp := (pi_input I).
Notation m := (vp_m vp).
Notation sizes := (vp_sizes vp).
Notation dq := (mkPq (@nil (pbatch P)) []).
Notation db := (mkPb (@nil (F P * F P)) []).
Notation dr := (mkPrd (@f0 P) f0 []).

Lemma q_facts : forall q, In q (pp_queries pf) ->
  zlen (positions q) = m /\ zlen (pq_init q) = zlen sizes /\ zlen (pq_rounds q) = vp_r vp /\
  (forall j, 0 <= j < zlen sizes -> zlen (pb_vals (znth db (pq_init q) j)) = znth 0 sizes j /\ zlen (pb_path (znth db (pq_init q) j)) = m) /\
  (forall j, 0 <= j < vp_r vp -> zlen (pd_path (znth dr (pq_rounds q) j)) = m - j).
Proof.
  intros q Hq. destruct HF as [_ [_ [_ [_ K]]]]. destruct (K q Hq) as [_ [B [B1 [D [E _]]]]].
  destruct HM as [_ [MR [MM [MS [_ MQ]]]]]. destruct (MQ q Hq) as [Q1 Q2].
  split. { unfold positions. destruct (pq_init q) as [|b l]; [change (zlen (@nil (pbatch P))) with 0 in B; lia|]. rewrite zl_map, MM. apply D. left. reflexivity. }
  split; [lia|]. split; [lia|]. split.
  - intros j Hj. split; [apply Q1; lia|]. rewrite MM. apply D. apply znth_in. lia.
  - intros j Hj. rewrite MM. apply Q2. lia.
Qed.

Lemma leaf_eq : forall i j, 0 <= i < vp_lam vp -> 0 <= j < zlen sizes -> let q := znth dq (pp_queries pf) i in
  map (fun t => (vval T (v2 (vi_vals inp) i (2 * lsum (fun q => znth 0 sizes q) (zseq 0 j) + 2 * t)),
                 vval T (v2 (vi_vals inp) i (2 * lsum (fun q => znth 0 sizes q) (zseq 0 j) + 2 * t + 1)))) (zseq 0 (znth 0 sizes j))
  = pb_vals (znth db (pq_init q) j).
Proof.
  intros i j Hi Hj q. destruct (proof_layout P I pf T HF HP) as [_ [_ [_ [_ [LV _]]]]].
  assert (LQ : zlen (pp_queries pf) = vp_lam vp) by (destruct HF as [_ [_ [_ [E _]]]]; destruct HM as [E' _]; lia).
  assert (IQ : In q (pp_queries pf)) by (apply znth_in; lia).
  destruct (q_facts q IQ) as [F1 [F2 [F3 [F4 F5]]]].
  set (ls := map (fun b : pbatch P => flat2 (pb_vals b)) (pq_init q)).
  assert (LL : zlen ls = zlen sizes) by (unfold ls; rewrite zl_map; exact F2).
  assert (LN : forall k, 0 <= k < zlen ls -> znth [] ls k = flat2 (pb_vals (znth db (pq_init q) k)))
    by (intros k Hk; unfold ls; rewrite (znth_map _ _ (fun b : pbatch P => flat2 (pb_vals b)) db) by lia; reflexivity).
  assert (LF : forall k, 0 <= k < zlen ls -> zlen (znth [] ls k) = 2 * znth 0 sizes k)
    by (intros k Hk; rewrite LN, zl_flat2 by exact Hk; rewrite (proj1 (F4 k ltac:(lia))); reflexivity).
  assert (TOT : zlen (concat ls) = 2 * lsum (fun q => znth 0 sizes q) (zseq 0 (zlen sizes))).
  { rewrite <- lsum_mul, <- LL. apply zl_concat_lsum. exact LF. }
  assert (NN : forall k, 0 <= k < zlen sizes -> 0 <= znth 0 sizes k) by (intros k Hk; apply sizes_nn; apply HV).
  destruct (lsum_prefix (fun q => znth 0 sizes q) (zlen sizes) j NN Hj) as [B1 B2].
  assert (RD : forall t, 0 <= t < 2 * znth 0 sizes j ->
     vval T (v2 (vi_vals inp) i (2 * lsum (fun q => znth 0 sizes q) (zseq 0 j) + t)) = znth f0 (flat2 (pb_vals (znth db (pq_init q) j))) t).
  { intros t Ht. assert (EN : znth [] (map (fun q => flat2 (concat (map pb_vals (pq_init q)))) (pp_queries pf)) i = concat ls).
    { rewrite (znth_map _ _ _ dq) by lia. fold q. rewrite <- pw_vals_flat. apply pw_vals_eq. }
    rewrite (v2_val P T _ _ i _ LV); [rewrite EN|rewrite zl_map; lia|rewrite EN, TOT; lia].
    rewrite <- lsum_mul. rewrite (znth_concat _ f0 ls (fun q => 2 * znth 0 sizes q) j t LF ltac:(lia) Ht). rewrite LN by lia. reflexivity. }
  apply (map_zseq_list _ (f0, f0)); [apply F4; exact Hj|]. intros t Ht.
  destruct (flat2_nth P (pb_vals (znth db (pq_init q) j)) t ltac:(rewrite (proj1 (F4 j Hj)); exact Ht)) as [G1 G2].
  rewrite (surjective_pairing (znth (f0, f0) _ t)), <- G1, <- G2. rewrite <- Z.add_assoc, !RD by lia. reflexivity.
Qed.

Lemma pos_eq : forall i t, 0 <= i < vp_lam vp -> 0 <= t < m ->
  vval T (v2 (vi_pos inp) i t) = znth f0 (positions (znth dq (pp_queries pf) i)) t.
Proof.
  intros i t Hi Ht. destruct (proof_layout P I pf T HF HP) as [_ [_ [_ [LP _]]]].
  assert (LQ : zlen (pp_queries pf) = vp_lam vp) by (destruct HF as [_ [_ [_ [E _]]]]; destruct HM as [E' _]; lia).
  assert (IQ : In (znth dq (pp_queries pf) i) (pp_queries pf)) by (apply znth_in; lia).
  destruct (q_facts _ IQ) as [F1 _].
  assert (EN : znth [] (map positions (pp_queries pf)) i = positions (znth dq (pp_queries pf) i)) by (rewrite (znth_map _ _ _ dq) by lia; reflexivity).
  rewrite (v2_val P T _ _ i _ LP); [rewrite EN; reflexivity|rewrite zl_map; lia|rewrite EN; lia].
Qed.

Lemma path_eq : forall i j, 0 <= i < vp_lam vp -> 0 <= j < zlen sizes -> let q := znth dq (pp_queries pf) i in
  map (fun t => (vval T (v2 (vi_pos inp) i t), vval T (v2 (vi_hashes inp) i (m * j + t)))) (zseq 0 m)
  = combine (positions q) (map snd (pb_path (znth db (pq_init q) j))).
Proof.
  intros i j Hi Hj q. destruct (proof_layout P I pf T HF HP) as [_ [_ [_ [_ [_ [LH _]]]]]].
  assert (LQ : zlen (pp_queries pf) = vp_lam vp) by (destruct HF as [_ [_ [_ [E _]]]]; destruct HM as [E' _]; lia).
  assert (IQ : In q (pp_queries pf)) by (apply znth_in; lia).
  destruct (q_facts q IQ) as [F1 [F2 [F3 [F4 F5]]]].
  set (ls := map (fun b : pbatch P => map snd (pb_path b)) (pq_init q)).
  assert (LL : zlen ls = zlen sizes) by (unfold ls; rewrite zl_map; exact F2).
  assert (LN : forall k, 0 <= k < zlen ls -> znth [] ls k = map snd (pb_path (znth db (pq_init q) k)))
    by (intros k Hk; unfold ls; rewrite (znth_map _ _ (fun b : pbatch P => map snd (pb_path b)) db) by lia; reflexivity).
  assert (LF : forall k, 0 <= k < zlen ls -> zlen (znth [] ls k) = (fun _ => m) k)
    by (intros k Hk; rewrite LN, zl_map by exact Hk; apply F4; lia).
  assert (TOT : zlen (concat ls) = m * zlen sizes).
  { rewrite (zl_concat_lsum _ ls (fun _ => m) LF), LL. apply lsum_const. pose proof (zlen_nonneg _ sizes). lia. }
  apply (map_zseq_list _ (f0, f0)).
  { rewrite zl_combine; rewrite zl_map, (proj2 (F4 j Hj)); lia. }
  intros t Ht. rewrite znth_combine by (rewrite ?zl_map, ?(proj2 (F4 j Hj)); lia). rewrite (pos_eq i t Hi Ht). f_equal.
  assert (EN : znth [] (map (fun q => concat (map (fun b => map snd (pb_path b)) (pq_init q))) (pp_queries pf)) i = concat ls)
    by (rewrite (znth_map _ _ _ dq) by lia; reflexivity).
  rewrite (v2_val P T _ _ i _ LH); [rewrite EN|rewrite zl_map; lia|rewrite EN, TOT; nia].
  rewrite <- (lsum_const m j) by lia. rewrite (znth_concat _ f0 ls (fun _ => m) j t LF ltac:(lia) Ht). rewrite LN by lia. reflexivity.
Qed.

Lemma rpath_eq : forall i j, 0 <= i < vp_lam vp -> 1 <= j < vp_r vp -> let q := znth dq (pp_queries pf) i in
  map (fun t => (vval T (v2 (vi_pos inp) i t), vval T (v2 (vi_rhashes inp) i (lsum (fun q => m - q) (zseq 0 j) + t)))) (zseq 0 (m - j))
  = combine (positions q) (pd_path (znth dr (pq_rounds q) j)).
Proof.
  intros i j Hi Hj q. destruct (proof_layout P I pf T HF HP) as [_ [_ [_ [_ [_ [_ [_ LH]]]]]]].
  assert (LQ : zlen (pp_queries pf) = vp_lam vp) by (destruct HF as [_ [_ [_ [E _]]]]; destruct HM as [E' _]; lia).
  assert (IQ : In q (pp_queries pf)) by (apply znth_in; lia).
  destruct (q_facts q IQ) as [F1 [F2 [F3 [F4 F5]]]]. destruct HV as [_ [VR _]].
  set (ls := map (@pd_path P) (pq_rounds q)).
  assert (LL : zlen ls = vp_r vp) by (unfold ls; rewrite zl_map; exact F3).
  assert (LN : forall k, 0 <= k < zlen ls -> znth [] ls k = pd_path (znth dr (pq_rounds q) k))
    by (intros k Hk; unfold ls; rewrite (znth_map _ _ (@pd_path P) dr) by lia; reflexivity).
  assert (LF : forall k, 0 <= k < zlen ls -> zlen (znth [] ls k) = (fun q => m - q) k)
    by (intros k Hk; rewrite LN by exact Hk; apply F5; lia).
  assert (TOT : zlen (concat ls) = lsum (fun q => m - q) (zseq 0 (vp_r vp))) by (rewrite <- LL; apply zl_concat_lsum; exact LF).
  destruct (lsum_prefix (fun q => m - q) (vp_r vp) j ltac:(intros; lia) ltac:(lia)) as [B1 B2].
  apply (map_zseq_list _ (f0, f0)).
  { rewrite zl_combine; rewrite (F5 j ltac:(lia)); lia. }
  intros t Ht. rewrite znth_combine by (rewrite ?(F5 j ltac:(lia)); lia). rewrite (pos_eq i t Hi ltac:(lia)). f_equal.
  assert (EN : znth [] (map (fun q => concat (map pd_path (pq_rounds q))) (pp_queries pf)) i = concat ls)
    by (rewrite (znth_map _ _ _ dq) by lia; reflexivity).
  rewrite (v2_val P T _ _ i _ LH); [rewrite EN|rewrite zl_map; lia|rewrite EN, TOT; lia].
  rewrite (znth_concat _ f0 ls (fun q => m - q) j t LF ltac:(lia) Ht). rewrite LN by lia. reflexivity.
Qed.

Lemma ys_eq : forall i j, 0 <= i < vp_lam vp -> 0 <= j < vp_r vp -> let d := znth dr (pq_rounds (znth dq (pp_queries pf) i)) j in
  vval T (v2 (vi_rvals inp) i (2 * j)) = pd_y0 d /\ vval T (v2 (vi_rvals inp) i (2 * j + 1)) = pd_y1 d.
Proof.
  intros i j Hi Hj d. destruct (proof_layout P I pf T HF HP) as [_ [_ [_ [_ [_ [_ [LV _]]]]]]].
  assert (LQ : zlen (pp_queries pf) = vp_lam vp) by (destruct HF as [_ [_ [_ [E _]]]]; destruct HM as [E' _]; lia).
  set (q := znth dq (pp_queries pf) i) in *. assert (IQ : In q (pp_queries pf)) by (apply znth_in; lia).
  destruct (q_facts q IQ) as [F1 [F2 [F3 [F4 F5]]]].
  assert (EN : znth [] (map (fun q => flat2 (map (fun d => (pd_y0 d, pd_y1 d)) (pq_rounds q))) (pp_queries pf)) i
     = flat2 (map (fun d => (pd_y0 d, pd_y1 d)) (pq_rounds q))) by (rewrite (znth_map _ _ _ dq) by lia; reflexivity).
  destruct (flat2_nth P (map (fun d => (pd_y0 d, pd_y1 d)) (pq_rounds q)) j ltac:(rewrite zl_map; lia)) as [G1 G2].
  rewrite (znth_map _ _ _ dr) in G1, G2 by lia. fold d in G1, G2.
  split; (rewrite (v2_val P T _ _ i _ LV); [rewrite EN; assumption|rewrite zl_map; lia|rewrite EN, zl_flat2, zl_map; lia]).
Qed.

Lemma checks_proof : verifier_checks H (vp_lam vp) (vp_r vp) m sizes (vp_vk0 vp) (vp_vk1 vp) (proof_vals T inp) <-> proof_ok H (vp_vk0 vp) (vp_vk1 vp) pf.
Proof.
  destruct (proof_layout P I pf T HF HP) as [LC [LCH [LR _]]].
  assert (LQ : zlen (pp_queries pf) = vp_lam vp) by (destruct HF as [_ [_ [_ [E _]]]]; destruct HM as [E' _]; lia).
  pose proof (zl_comms P I pf HF) as NC.
  assert (LRT : zlen (pp_roots pf) = vp_r vp) by (destruct HF as [_ [_ [E _]]]; destruct HM as [_ [E' _]]; lia).
  assert (CM : forall j, 0 <= j < zlen (comms pf) -> vval T (znth dv (vi_comms inp) j) = znth f0 (comms pf) j) by (intros j Hj; apply v1_val; assumption).
  assert (N3 : 3 <= pi_ncomm I) by (unfold pi_ncomm; destruct (pi_lookups I); lia).
  assert (NB : zlen sizes - 1 <= zlen (comms pf)) by (destruct HM as [_ [_ [_ [E [E' _]]]]]; lia).
  assert (TR : transcript_ok H (vp_vk0 vp) (vp_vk1 vp) (proof_vals T inp) <->
    (let '(a, b, d) := pp_comm pf in
     absorb H f0 ([(vp_vk0 vp, vp_vk1 vp); (a, f0); (f0, f0); (b, f0)] ++ repeat (f0, f0) 8 ++ [(d, f0)]) = pp_chal pf)).
  { unfold transcript_ok. cbn [proof_vals pr_comm pr_chal]. rewrite !CM, LCH by lia. unfold comms. destruct (pp_comm pf) as [[a b] d].
    change (znth f0 (a :: b :: d :: match pp_lookup pf with Some x => [x] | None => [] end) 0) with a.
    change (znth f0 (a :: b :: d :: match pp_lookup pf with Some x => [x] | None => [] end) 1) with b.
    change (znth f0 (a :: b :: d :: match pp_lookup pf with Some x => [x] | None => [] end) 2) with d. tauto. }
  assert (BO : forall i, 0 <= i < vp_lam vp -> forall j, 0 <= j < zlen sizes -> let b := znth db (pq_init (znth dq (pp_queries pf) i)) j in
    batch_ok H m sizes (vp_vk1 vp) (proof_vals T inp) i j <->
    opens H (absorb H f0 (pb_vals b)) (combine (positions (znth dq (pp_queries pf) i)) (map snd (pb_path b))) (if j =? 0 then vp_vk1 vp else znth f0 (comms pf) (j - 1))).
  { intros i Hi j Hj b. unfold batch_ok. cbv zeta. cbn [proof_vals pr_comm pr_val pr_pos pr_hash]. apply opens_iff.
    - rewrite (leaf_eq i j Hi Hj). reflexivity.
    - apply path_eq; assumption.
    - destruct (Z.eqb_spec j 0); [reflexivity|apply CM; lia]. }
  assert (RO : forall i, 0 <= i < vp_lam vp -> forall j, 1 <= j < vp_r vp ->
    let y := znth dr (pq_rounds (znth dq (pp_queries pf) i)) (j - 1) in let d := znth dr (pq_rounds (znth dq (pp_queries pf) i)) j in
    round_ok H m (proof_vals T inp) i j <->
    opens H (H f0 (pd_y0 y) (pd_y1 y)) (combine (positions (znth dq (pp_queries pf) i)) (pd_path d)) (znth f0 (pp_roots pf) j)).
  { intros i Hi j Hj y d. unfold round_ok. cbv zeta. cbn [proof_vals pr_root pr_rval pr_pos pr_rhash]. apply opens_iff.
    - destruct (ys_eq i (j - 1) Hi ltac:(lia)) as [Y0 Y1]. rewrite Y0, Y1. reflexivity.
    - apply rpath_eq; assumption.
    - apply v1_val; [exact LR|lia]. }
  unfold verifier_checks, proof_ok. rewrite TR. apply and_iff_compat_l. split.
  - intros K q Hq. destruct (in_znth _ dq _ _ Hq) as [i [Hi <-]]. rewrite LQ in Hi. destruct (K i Hi) as [K1 K2].
    destruct (q_facts _ Hq) as [_ [F2 [F3 _]]]. rewrite F2, F3. split.
    + intros j Hj b ->. apply BO; [exact Hi|exact Hj|apply K1; exact Hj].
    + intros j Hj y d -> ->. apply RO; [exact Hi|exact Hj|apply K2; exact Hj].
  - intros K i Hi. assert (Hq : In (znth dq (pp_queries pf) i) (pp_queries pf)) by (apply znth_in; lia). destruct (K _ Hq) as [K1 K2].
    destruct (q_facts _ Hq) as [_ [F2 [F3 _]]]. rewrite F2 in K1. rewrite F3 in K2. split.
    + intros j Hj. apply BO; [exact Hi|exact Hj|]. apply (K1 j Hj _ eq_refl).
    + intros j Hj. apply RO; [exact Hi|exact Hj|]. apply (K2 j Hj _ _ eq_refl eq_refl).
Qed.
End Checks.

Lemma pi_inputs_pub : forall I v, In v (inputs (pi_input I)) -> vty v = CPub.
Proof.
  intros I v Hv.
  assert (PV : forall a n, In v (pvars a n) -> vty v = CPub) by (intros a n K; unfold pvars in K; apply in_map_iff in K as [i [<- _]]; reflexivity).
  assert (QS : forall n cur x, In x (pi_queries I n cur) -> exists cur', x = pi_query I cur').
  { induction n as [|n IH]; intros cur x; cbn [pi_queries In]; [tauto|]. intros [<-|K]; [eexists; reflexivity|exact (IH _ _ K)]. }
  assert (QC : forall sv n cur, (forall cur', exists a k, sv (pi_query I cur') = pvars a k) -> In v (concat (map sv (pi_queries I n cur))) -> vty v = CPub).
  { intros sv n cur K1 K2. apply in_concat in K2 as [l [K2 K3]]. apply in_map_iff in K2 as [x [<- K4]]. destruct (QS _ _ _ K4) as [cur' ->].
    destruct (K1 cur') as [a [k E]]. rewrite E in K3. exact (PV _ _ K3). }
  unfold inputs, pi_input in Hv. cbn [vi_chal vi_comms vi_roots vi_pos vi_vals vi_hashes vi_rvals vi_rhashes] in Hv.
  destruct Hv as [<-|Hv]; [reflexivity|]. rewrite !in_app_iff in Hv.
  destruct Hv as [Hv|[Hv|[Hv|[Hv|[Hv|[Hv|Hv]]]]]]; [exact (PV _ _ Hv)|exact (PV _ _ Hv)|..];
    (eapply QC; [|exact Hv]; intros cur'; do 2 eexists; reflexivity).
Qed.

(** A proof, laid out by the wrapper, is accepted exactly when its members pass
    the checks. *)
Theorem verifier_proof : forall P (L : lenv P) mds rc vp c w sw row I pf (T : table P),
  wf_comp c w -> 9 <= w -> w mod 3 = 0 -> vp_ok vp -> placed c sw row (ver_rows vp w) ->
  fits I pf -> params_match vp I pf -> public_is T pf ->
  consts_in T (ver_circuit mds rc [] vp c sw (pi_input I) row) ->
  ((exists T', same_outside c sw row (ver_rows vp w) T T' /\ sat L T' (ver_circuit mds rc [] vp c sw (pi_input I) row)) <->
   proof_ok (hash mds rc) (vp_vk0 vp) (vp_vk1 vp) pf).
Proof.
  intros P L mds rc vp c w sw row I pf T Hwf H9 HW Hvp Hpl HF HM HP KC.
  rewrite <- (checks_proof P (hash mds rc) I pf T vp HF HP Hvp HM).
  apply verifier_exact; try assumption. intros v Hv [K _]. rewrite (pi_inputs_pub I v Hv) in K. discriminate.
Qed.
Print Assumptions verifier_proof.

(** ** Instances *)

(** One query of one batch with one polynomial and two rounds. *)
Definition ex_info : pinfo := mkPi false 0 (fun _ => 0) 0 0 0 0 0 0 2 1 1 1 1 1 1.
Definition ex_proof (H : F P7 -> F P7 -> F P7 -> F P7) (bit : F P7) : pproof P7 :=
  mkPp (ofZ 1, ofZ 2, ofZ 3) None (ex_chal H) [[[ofZ 1; ofZ 2]; [ofZ 3]]; [[ofZ 4; ofZ 5; ofZ 6]]] [f0; H f0 (ofZ 4) (ofZ 5)]
    [mkPq [mkPb [(ofZ 2, ofZ 3)] [(bit, ex_leaf H)]] [mkPrd (ofZ 4) (ofZ 5) [f0]; mkPrd f0 (ofZ 1) []]] [ofZ 6].
Definition ex_ptab H bit : table P7 := fun ty col rw =>
  match ty with CPub => znth f0 (pw_vector (ex_proof H bit)) rw | _ => ex_tab H f0 f0 f0 ty col rw end.

Lemma ex_fits : forall H bit, fits ex_info (ex_proof H bit).
Proof.
  intros H bit. split; [reflexivity|]. split; [reflexivity|]. split; [reflexivity|]. split; [reflexivity|].
  intros q [<-|[]]. split; [reflexivity|]. split; [reflexivity|]. split; [cbn; lia|].
  split; [intros b [<-|[]]; reflexivity|]. split; reflexivity.
Qed.
Lemma ex_match : forall H bit, params_match (ex_vp H) ex_info (ex_proof H bit).
Proof.
  intros H bit. do 4 (split; [reflexivity|]). split; [vm_compute; discriminate|].
  intros q [<-|[]]. split; intros j Hj; cbn in Hj.
  - assert (j = 0) as -> by lia. reflexivity.
  - assert (j = 0 \/ j = 1) as [->| ->] by lia; reflexivity.
Qed.
Lemma ex_public : forall H bit, public_is (ex_ptab H bit) (ex_proof H bit).
Proof. intros H bit i Hi. reflexivity. Qed.
Lemma ex_pconsts : forall H mds rc bit, consts_in (ex_ptab H bit) (ver_circuit mds rc [] (ex_vp H) (std_comp 9) ex_sw (pi_input ex_info) 0).
Proof.
  intros H mds rc bit col rw v K. unfold ver_circuit in K. apply in_app_or in K as [K|K].
  - cbn [In] in K. destruct K as [K|[K|[K|[K|[]]]]]; injection K as <- <- <-; reflexivity.
  - unfold vprog, pverifier in K. cbv zeta in K. cbn [compile] in K.
    assert (R1 : 1 <= fp_rows (wamount (std_comp 9))) by (change (wamount (std_comp 9)) with 9; apply fp_rows_pos; [lia|reflexivity]).
    do 4 (apply in_app_or in K as [K|K]; [destruct (nc_fp _ _ _ _ _ _ _ _ _ _ K)|]).
    apply consts_compile in K as [-> [K ->]]; try (vm_compute; discriminate).
    + unfold ex_ptab, ex_tab. destruct (Z.ltb_spec rw 4); [lia|reflexivity].
    + intros q Hq. apply xi_rows_nn; [reflexivity..|exact Hq].
Qed.
Lemma ex_proof_ok : forall H bit, bit = f0 \/ bit = f1 -> proof_ok H (ofZ 6) (ex_vk1 H) (ex_proof H bit).
Proof.
  intros H bit HB. split; [reflexivity|]. intros q [<-|[]]. split.
  - intros j Hj b ->. change (zlen _) with 1 in Hj. assert (j = 0) as -> by lia. split.
    + intros b s [K|[]]. injection K as <- <-. exact HB.
    + change (climb H (ex_leaf H) [(bit, ex_leaf H)] = ex_vk1 H). cbn [climb fst snd]. unfold ex_vk1. destruct (feqb bit f0); reflexivity.
  - intros j Hj y d -> ->. change (zlen _) with 2 in Hj. assert (j = 1) as -> by lia. split; [intros b s []|reflexivity].
Qed.

Example proof_layout_ex : let pf := ex_proof (fun _ _ _ => f1) f0 in
  fits ex_info pf /\ public_is (ex_ptab (fun _ _ _ => f1) f0) pf /\ zlen (pp_final pf) = pi_final ex_info /\
  zlen (pw_vector pf) = 22 /\ vi_roots (pi_input ex_info) = [pin 10; pin 11] /\ znth f0 (pw_vector pf) 11 = f1 /\
  vi_rvals (pi_input ex_info) = [[pin 16; pin 17; pin 18; pin 19]] /\ znth f0 (pw_vector pf) 17 = ofZ 5.
Proof. split; [apply ex_fits|]. split; [apply ex_public|]. repeat split. Qed.
(** A proof that is accepted. *)
Example verifier_proof_ex : let H := hash ex_mds ex_mds in
  exists T', same_outside (std_comp 9) ex_sw 0 (ver_rows (ex_vp H) 9) (ex_ptab H f1) T' /\
    sat (noL P7) T' (ver_circuit ex_mds ex_mds [] (ex_vp H) (std_comp 9) ex_sw (pi_input ex_info) 0).
Proof.
  cbv zeta. apply (verifier_proof P7 (noL P7) ex_mds ex_mds (ex_vp (hash ex_mds ex_mds)) (std_comp 9) 9 ex_sw 0 ex_info (ex_proof (hash ex_mds ex_mds) f1));
    [apply wf_std; lia|lia|reflexivity|apply ex_vp_ok|apply ex_placed|apply ex_fits|apply ex_match|apply ex_public|apply ex_pconsts|].
  apply ex_proof_ok. right. reflexivity.
Qed.
(** One that is not: its position is no bit. *)
Example verifier_proof_no : ~ proof_ok (hash ex_mds ex_mds) (ofZ 6) (ex_vk1 (hash ex_mds ex_mds)) (ex_proof (hash ex_mds ex_mds) (ofZ 2)).
Proof.
  intros [_ K]. destruct (K _ (or_introl eq_refl)) as [K1 _]. destruct (K1 0 ltac:(unfold zlen; cbn; lia) _ eq_refl) as [K2 _].
  destruct (K2 (ofZ 2) (ex_leaf (hash ex_mds ex_mds)) (or_introl eq_refl)) as [E|E]; apply (f_equal fval) in E; vm_compute in E; discriminate.
Qed.

(** ** The number of evaluations *)

(** The evaluations of a proof: permutation, witness, public input, constant and
    selector columns, each column with its own rotations, the permutation
    argument, the quotient, the lookups. *)
Definition evals_of (I : pinfo) : Z :=
  pi_perm I * 2 + 4 + zsum (pi_rot I) (pi_wit I + pi_pub I + pi_const I + pi_sel I) + 2 + (if pi_lookups I then 2 else 0) +
  pi_quot I + (if pi_lookups I then 3 * pi_sorted I else 0).
(** The same, for the other parts of the shape. *)
Definition well_shaped {P} (I : pinfo) (pf : pproof P) : Prop :=
  pi_lookups I = (match pp_lookup pf with Some _ => true | None => false end) /\
  zlen (concat (concat (pp_z pf))) = evals_of I /\ zlen (pp_roots pf) = pi_r I /\ zlen (pp_queries pf) = pi_lam I /\
  forall q, In q (pp_queries pf) ->
    zlen (concat (map pb_vals (pq_init q))) = pi_polys I /\ zlen (pq_init q) = pi_batches I /\ 1 <= pi_batches I /\
    (forall b, In b (pq_init q) -> zlen (pb_path b) = pi_m I) /\
    zlen (pq_rounds q) = pi_r I /\ zlen (concat (map pd_path (pq_rounds q))) = pi_layers I.

Lemma zsum_lsum : forall f n, zsum f n = lsum f (zseq 0 n).
Proof.
  intros f n. unfold zsum. assert (K : forall l a, fold_left (fun a i => a + f i) l a = a + lsum f l).
  { induction l as [|x l IH]; intros a; cbn [fold_left lsum]; [lia|]. rewrite IH. lia. }
  rewrite K. lia.
Qed.
Lemma zsum_snoc : forall f n, 0 <= n -> zsum f (n + 1) = zsum f n + f n.
Proof. intros f n Hn. rewrite !zsum_lsum. apply lsum_snoc. exact Hn. Qed.
Lemma zsum_split : forall f a b, 0 <= a -> 0 <= b -> zsum f (a + b) = zsum f a + zsum (fun i => f (a + i)) b.
Proof.
  intros f a b Ha. revert b. apply (natlike_ind (fun b => zsum f (a + b) = zsum f a + zsum (fun i => f (a + i)) b)).
  - rewrite Z.add_0_r. change (zsum (fun i => f (a + i)) 0) with 0. lia.
  - intros b Hb IH. unfold Z.succ. rewrite Z.add_assoc, !zsum_snoc by lia. rewrite IH. lia.
Qed.
Lemma zsum_ext : forall f g n, (forall i, 0 <= i < n -> f i = g i) -> zsum f n = zsum g n.
Proof. intros f g n K. rewrite !zsum_lsum. apply lsum_ext. intros i Hi. apply in_zseq in Hi. apply K. exact Hi. Qed.

(** Constructions with as many public input as constant columns, or in which
    each selector column has as many rotations as the column the code looks at,
    lay a well shaped proof out as the verifier reads it. *)
Theorem layout_shaped : forall P I (pf : pproof P), 0 <= pi_wit I -> 0 <= pi_pub I -> 0 <= pi_const I -> 0 <= pi_sel I ->
  well_shaped I pf ->
  (forall i, 0 <= i < pi_sel I -> pi_rot I (pi_wit I + 2 * pi_pub I + i) = pi_rot I (pi_wit I + pi_pub I + pi_const I + i)) ->
  fits I pf.
Proof.
  intros P I pf H1 H2 H3 H4 [A [B [D [E G]]]] K. split; [exact A|]. split; [|split; [exact D|split; [exact E|exact G]]].
  rewrite B. unfold evals_of, pi_zs. rewrite !zsum_split by lia.
  rewrite (zsum_ext (fun i => pi_rot I (pi_wit I + pi_pub I + pi_pub I + i)) (fun i => pi_rot I (pi_wit I + pi_pub I + pi_const I + i)))
    by (intros i Hi; rewrite <- K by exact Hi; f_equal; lia).
  rewrite (zsum_ext (fun i => pi_rot I (i + pi_wit I)) (fun i => pi_rot I (pi_wit I + i))) by (intros i Hi; f_equal; lia).
  change (zsum (fun i => pi_rot I i) (pi_wit I)) with (zsum (pi_rot I) (pi_wit I)). lia.
Qed.
Print Assumptions layout_shaped.
Example layout_shaped_ex : let I := mkPi true 3 (fun i => 1 + i mod 2) 3 2 4 2 2 1 1 0 1 1 1 1 1 in
  evals_of I = 6 + 4 + (2 + 4 + 6 + 4) + 2 + 2 + 2 + 3 /\
  well_shaped I (mkPp (f1, f1, f1) (Some f1) f0 [[repeat (ofZ (P := P7) 3) 20; repeat f1 15]] [f1] [] [ofZ 3]) /\
  forall i, 0 <= i < pi_sel I -> pi_rot I (pi_wit I + 2 * pi_pub I + i) = pi_rot I (pi_wit I + pi_pub I + pi_const I + i).
Proof.
  cbv zeta. split; [reflexivity|]. split. { do 4 (split; [reflexivity|]). intros q []. } cbn [pi_sel pi_rot pi_wit pi_pub pi_const]. intros i Hi.
  assert (i = 0 \/ i = 1) as [->| ->] by lia; reflexivity.
Qed.

(** Otherwise the variables are shifted: a well shaped proof, and the variable of
    its first root has another value. *)
Theorem proof_layout_refuted : exists I (pf : pproof P7) T, well_shaped I pf /\ public_is T pf /\
  0 < pi_const I /\ 0 < pi_sel I /\ vval T (znth dv (vi_roots (pi_input I)) 0) <> znth f0 (pp_roots pf) 0.
Proof.
  pose (I := mkPi false 0 (fun i => if i =? 3 then 2 else 1) 1 1 2 1 0 0 1 0 1 1 1 1 1).
  pose (pf := mkPp (@f0 P7, f0, f0) None f0 [[[f0; f0; f0; f0]; [f0; f0; f0; f0; f0; f0]; [f0; f0]]] [f1] [] [ofZ 3]).
  exists I, pf, (fun _ _ i => znth f0 (pw_vector pf) i). split.
  - split; [reflexivity|]. split; [reflexivity|]. split; [reflexivity|]. split; [reflexivity|]. intros q [].
  - split; [intros i _; reflexivity|]. split; [cbn; lia|]. split; [cbn; lia|]. apply fval_neq. vm_compute. discriminate.
Qed.
Print Assumptions proof_layout_refuted.
