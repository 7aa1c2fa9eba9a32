(** Properties C126 and C127: lookup tables in text form. *)
From Coq Require Import ZArith List Lia Bool.
From Verif Require Import Base Field Pasta LoaderModel.
Import ListNotations.
Open Scope Z_scope.

(** ** Specification *)

Definition is_hex (ch d : Z) : Prop :=
  48 <= ch <= 57 /\ d = ch - 48 \/ 97 <= ch <= 102 /\ d = ch - 97 + 10 \/ 65 <= ch <= 70 /\ d = ch - 65 + 10.
Definition is_blank (ch : Z) : Prop := ch = 32 \/ 9 <= ch <= 13.
(** The text is the number in base 16, the last digit the least significant. *)
Inductive hexnum : list Z -> Z -> Prop :=
| hex_one : forall ch d, is_hex ch d -> hexnum [ch] d
| hex_more : forall s v ch d, hexnum s v -> is_hex ch d -> hexnum (s ++ [ch]) (16 * v + d).
(** The text is the numbers, of at most [k] digits each, with blanks between them. *)
Inductive row_text (k : nat) : list Z -> list Z -> Prop :=
| row_end : forall b, Forall is_blank b -> row_text k b []
| row_more : forall b s v t vs, Forall is_blank b -> hexnum s v -> (length s <= k)%nat ->
    (t = [] \/ exists ch u, t = ch :: u /\ is_blank ch) -> row_text k t vs -> row_text k (b ++ s ++ t) (v :: vs).

(** ** Lemmas *)

Lemma hex_is : forall ch d, is_hex ch d -> lt_hex ch = Some d.
Proof.
  intros ch d H. unfold lt_hex. destruct H as [[A ->]|[[A ->]|[A ->]]].
  - rewrite (proj2 (Z.leb_le 48 ch)), (proj2 (Z.leb_le ch 57)) by lia. reflexivity.
  - rewrite (proj2 (Z.leb_gt ch 57)) by lia. rewrite andb_false_r, (proj2 (Z.leb_le 97 ch)), (proj2 (Z.leb_le ch 102)) by lia. cbn. f_equal. lia.
  - rewrite (proj2 (Z.leb_gt ch 57)), (proj2 (Z.leb_gt 97 ch)) by lia. rewrite andb_false_r, (proj2 (Z.leb_le 65 ch)), (proj2 (Z.leb_le ch 70)) by lia. cbn. f_equal. lia.
Qed.
Lemma blank_is : forall ch, is_blank ch -> lt_space ch = true /\ lt_hex ch = None.
Proof.
  intros ch H. unfold lt_space, lt_hex. split.
  - destruct H as [->|H]; [reflexivity|]. rewrite (proj2 (Z.leb_le 9 ch)), (proj2 (Z.leb_le ch 13)) by lia. apply orb_true_r.
  - rewrite (proj2 (Z.leb_gt 48 ch)), (proj2 (Z.leb_gt 97 ch)), (proj2 (Z.leb_gt 65 ch)) by (destruct H; lia). reflexivity.
Qed.
Lemma hex_space : forall ch d, is_hex ch d -> lt_space ch = false.
Proof.
  intros ch d H. destruct (lt_space ch) eqn:E; [|reflexivity]. exfalso. unfold lt_space in E. apply orb_prop in E.
  destruct E as [E|E]; [apply Z.eqb_eq in E|apply andb_prop in E; destruct E as [A B]; apply Z.leb_le in A, B]; unfold is_hex in H; lia.
Qed.
Lemma skip_blanks : forall b s, Forall is_blank b -> lt_skip (b ++ s) = lt_skip s.
Proof. intros b s H. induction H as [|ch b Hc _ IH]; [reflexivity|]. cbn. rewrite (proj1 (blank_is ch Hc)). exact IH. Qed.
Lemma hex_first : forall s v, hexnum s v -> exists ch u d, s = ch :: u /\ is_hex ch d.
Proof.
  intros s v H. induction H as [ch d H|s v ch d H [c0 [u [d0 [-> H0]]]] H1]; [exists ch, [], d; auto|].
  exists c0, (u ++ [ch]), d0. split; [reflexivity|exact H0].
Qed.
Lemma digits_app : forall s v, hexnum s v -> forall n acc t, (length s <= n)%nat ->
  lt_digits n acc (s ++ t) = lt_digits (n - length s) (acc * 16 ^ Z.of_nat (length s) + v) t.
Proof.
  intros s v H. induction H as [ch d H|s v ch d H IH H1]; intros n acc t Hn.
  - cbn [length] in *. destruct n as [|n]; [lia|]. cbn [app lt_digits]. rewrite (hex_is ch d H). replace (S n - 1)%nat with n by lia. f_equal. change (16 ^ Z.of_nat 1) with 16. lia.
  - rewrite app_length in *. cbn [length] in *. rewrite <- app_assoc. cbn [app]. rewrite IH by lia.
    replace (n - length s)%nat with (S (n - (length s + 1))) by lia. cbn [lt_digits]. rewrite (hex_is ch d H1). f_equal.
    rewrite Nat2Z.inj_add, Z.pow_add_r by lia. change (16 ^ Z.of_nat 1) with 16. lia.
Qed.
Lemma digits_stop : forall n acc t, (t = [] \/ exists ch u, t = ch :: u /\ is_blank ch) -> lt_digits n acc t = (acc, t).
Proof. intros n acc t [->|[ch [u [-> H]]]]; destruct n; try reflexivity. cbn. rewrite (proj2 (blank_is ch H)). reflexivity. Qed.
Lemma number_is : forall k b s v t, Forall is_blank b -> hexnum s v -> (length s <= k)%nat -> (t = [] \/ exists ch u, t = ch :: u /\ is_blank ch) ->
  lt_number k (lt_skip (b ++ s ++ t)) = Some (v, t).
Proof.
  intros k b s v t Hb Hs Hk Ht. rewrite skip_blanks by exact Hb. destruct (hex_first s v Hs) as [ch [u [d [E Hd]]]].
  assert (S : lt_skip (s ++ t) = s ++ t) by (rewrite E; cbn; rewrite (hex_space ch d Hd); reflexivity). rewrite S.
  assert (N : lt_number k (s ++ t) = Some (lt_digits k 0 (s ++ t))) by (rewrite E; cbn [lt_number app]; rewrite (hex_is ch d Hd); reflexivity).
  rewrite N, (digits_app s v Hs k 0 t Hk), digits_stop by exact Ht. rewrite Z.mul_0_l, Z.add_0_l. reflexivity.
Qed.
Lemma skip_all : forall b, Forall is_blank b -> lt_skip b = [].
Proof. intros b H. rewrite <- (app_nil_r b). rewrite skip_blanks by exact H. reflexivity. Qed.

(** ** C126 *)

Theorem loader_line : forall P s vs, row_text (lt_maxd P) s vs -> lt_line P (length vs) s = Some (map (fun v => ofZ v) vs).
Proof.
  intros P s vs H. induction H as [b Hb|b s v t vs Hb Hs Hk Ht H IH]; [reflexivity|].
  cbn [length lt_line map]. rewrite (number_is _ b s v t Hb Hs Hk Ht), IH. reflexivity.
Qed.
Print Assumptions loader_line.

(** A line with too few numbers is refused. *)
Theorem loader_short : forall P s vs size, row_text (lt_maxd P) s vs -> (length vs < size)%nat -> lt_line P size s = None.
Proof.
  intros P s vs size H. revert size. induction H as [b Hb|b s v t vs Hb Hs Hk Ht H IH]; intros size Hl; (destruct size as [|size]; [cbn in Hl; lia|]); cbn [lt_line].
  - rewrite skip_all by exact Hb. reflexivity.
  - rewrite (number_is _ b s v t Hb Hs Hk Ht), IH by (cbn in Hl; lia). reflexivity.
Qed.
Print Assumptions loader_short.

Lemma rows_is : forall P size lines rows, Forall2 (row_text (lt_maxd P)) lines rows -> Forall (fun r => length r = size) rows ->
  lt_rows P size (length rows) lines = Some (map (map (fun v => ofZ v)) rows).
Proof.
  intros P size lines rows H. induction H as [|s vs lines rows H1 H2 IH]; intros L; [reflexivity|]. inversion_clear L as [|? ? L1 L2].
  cbn [length lt_rows hd tl map]. rewrite <- L1 at 1. rewrite (loader_line P s vs H1), (IH L2). reflexivity.
Qed.

(** The columns of the result hold the numbers of the rows of the text. *)
Theorem loader_table : forall P size lines rows,
  Forall2 (row_text (lt_maxd P)) lines rows -> Forall (fun r => length r = size) rows ->
  exists cols, lt_table P size (length rows) lines = Some cols /\ length cols = size /\
    forall i j, (i < length rows)%nat -> (j < size)%nat -> nth i (nth j cols []) f0 = ofZ (nth j (nth i rows []) 0).
Proof.
  intros P size lines rows H L. unfold lt_table. rewrite (rows_is P size lines rows H L). eexists. split; [reflexivity|].
  split; [rewrite map_length, seq_length; reflexivity|]. intros i j Hi Hj.
  set (r := map (map (fun v => ofZ v : F P)) rows).
  rewrite (nth_indep _ [] (map (fun l => nth 0 l f0) r)) by (rewrite map_length, seq_length; exact Hj).
  rewrite (map_nth (fun j => map (fun l => nth j l f0) r)), seq_nth by exact Hj. cbn [Nat.add].
  rewrite (nth_indep _ f0 (nth j [] f0)) by (unfold r; rewrite !map_length; exact Hi).
  rewrite (map_nth (fun l => nth j l f0)). unfold r. change (@nil (F P)) with (map (fun v => ofZ v : F P) []). rewrite map_nth.
  change (f0 : F P) with ((fun v => ofZ v : F P) 0). rewrite map_nth. reflexivity.
Qed.
Print Assumptions loader_table.

(** A text with fewer lines than rows is refused. *)
Theorem loader_missing : forall P size lines rows, (0 < size)%nat -> (length lines < rows)%nat -> lt_table P size rows lines = None.
Proof.
  intros P size lines rows Hs. unfold lt_table. intros H. replace (lt_rows P size rows lines) with (@None (list (list (F P)))); [reflexivity|]. symmetry. revert lines H.
  induction rows as [|rows IH]; intros lines H; [lia|]. cbn [lt_rows]. destruct lines as [|s lines]; cbn [hd tl].
  - destruct size; [lia|]. reflexivity.
  - destruct (lt_line P size s); [|reflexivity]. rewrite IH by (cbn in H; lia). reflexivity.
Qed.
Print Assumptions loader_missing.

(** ** C127 *)

(** A field element of seventeen digits: the line is accepted with other numbers. *)
Theorem loader_long_refuted : exists (P : params) (s : list Z) (a b : Z) (r : list (F P)),
  0 <= a < char P /\ 0 <= b < char P /\ row_text 64 s [a; b] /\ lt_line P 2 s = Some r /\ r <> [ofZ a; ofZ b].
Proof.
  pose (z := fun n => 49 :: repeat 48 n).
  assert (D : is_hex 48 0) by (left; lia).
  assert (Hz : forall n, hexnum (z n) (16 ^ Z.of_nat n)).
  { induction n as [|n IH]; [constructor; left; lia|]. unfold z. replace (S n) with (n + 1)%nat by lia. rewrite repeat_app. cbn [repeat].
    change (49 :: repeat 48 n ++ [48]) with (z n ++ [48]). replace (16 ^ Z.of_nat (n + 1)) with (16 * 16 ^ Z.of_nat n + 0); [constructor; assumption|].
    rewrite Nat2Z.inj_add, Z.pow_add_r by lia. change (16 ^ Z.of_nat 1) with 16. lia. }
  exists Ppallas, (z 16%nat ++ [32; 53]), (16 ^ 16), 5, [ofZ (16 ^ 15); ofZ 0].
  split; [split; [intro X; discriminate X|reflexivity]|]. split; [split; [intro X; discriminate X|reflexivity]|]. split; [|split].
  - apply (row_more 64 [] (z 16%nat) (16 ^ 16) [32; 53] [5]); [constructor|exact (Hz 16%nat)|cbn; lia|right; exists 32, [53]; split; [reflexivity|left; reflexivity]|].
    apply (row_more 64 [32] [53] 5 [] []); [repeat constructor|constructor; left; lia|cbn; lia|left; reflexivity|constructor; constructor].
  - vm_compute. reflexivity.
  - intro E. apply (f_equal (fun l => fval (nth 1 l f0))) in E. vm_compute in E. discriminate E.
Qed.
Print Assumptions loader_long_refuted.

(** ** Examples *)

(** The line "1f 3C" and the table of it and of "7 0". *)
Example line_ex : row_text (lt_maxd Ppallas) [49; 102; 32; 51; 67] [31; 60].
Proof.
  apply (row_more _ [] [49; 102] 31 [32; 51; 67] [60]); [constructor|apply (hex_more [49] 1 102 15); [constructor; left; lia|right; left; lia]|vm_compute; lia|right; exists 32, [51; 67]; split; [reflexivity|left; reflexivity]|].
  apply (row_more _ [32] [51; 67] 60 [] []); [repeat constructor|apply (hex_more [51] 3 67 12); [constructor; left; lia|right; right; lia]|vm_compute; lia|left; reflexivity|constructor; constructor].
Qed.
Example line_ex2 : row_text (lt_maxd Ppallas) [55; 9; 48] [7; 0].
Proof.
  apply (row_more _ [] [55] 7 [9; 48] [0]); [constructor|constructor; left; lia|vm_compute; lia|right; exists 9, [48]; split; [reflexivity|right; lia]|].
  apply (row_more _ [9] [48] 0 [] []); [constructor; [right; lia|constructor]|constructor; left; lia|vm_compute; lia|left; reflexivity|constructor; constructor].
Qed.
Example table_ex : exists cols, lt_table Ppallas 2 2 [[49; 102; 32; 51; 67]; [55; 9; 48]] = Some cols /\ nth 1 (nth 0 cols []) f0 = ofZ 7.
Proof.
  destruct (loader_table Ppallas 2 _ _ (Forall2_cons _ _ line_ex (Forall2_cons _ _ line_ex2 (Forall2_nil _)))) as [cols [E [_ R]]]; [repeat constructor|].
  exists cols. split; [exact E|]. exact (R 1%nat 0%nat ltac:(cbn; lia) ltac:(lia)).
Qed.
Example short_ex : lt_line Ppallas 3 [49; 102; 32; 51; 67] = None /\ lt_table Ppallas 2 3 [[49; 102; 32; 51; 67]; [55; 9; 48]] = None.
Proof. split; [apply (loader_short _ _ _ 3 line_ex); cbn; lia|apply loader_missing; cbn; lia]. Qed.
