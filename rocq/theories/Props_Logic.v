(** Property C19: the Boolean operation components. *)
From Coq Require Import ZArith List Lia Bool String.
From Verif Require Import Base Field Plonk PlonkFacts LogicModel LogicProofs Examples.
Import ListNotations.
Open Scope Z_scope.

(** Truth tables. *)
Definition truth (o : lop) (a b c : bool) : bool :=
  match o with
  | LNot => negb a | LAnd => a && b | LOr => a || b | LXor => xorb a b
  | LNand => negb (a && b) | LNor => negb (a || b) | LSelect => if a then b else c
  end.
(** [v] is the field encoding of a bit. *)
Definition is_bit {P} (v : F P) (b : bool) : Prop := v = (if b then f1 else f0).

Theorem logic_sound : forall P (L : lenv P) T k o x row a b c,
  sat L T (lop_circuit k o x row) ->
  is_bit (vval T (x 0)) a -> (1 < lop_args o -> is_bit (vval T (x 1)) b) ->
  (2 < lop_args o -> is_bit (vval T (x 2)) c) ->
  is_bit (vval T (lop_out k o row)) (truth o a b c).
Proof. exact lop_sound_l. Qed.
Print Assumptions logic_sound.

(** Selection works on arbitrary field elements once the condition is a bit. *)
Theorem logic_select_sound : forall P (L : lenv P) T k x row a,
  sat L T (lop_circuit k LSelect x row) -> is_bit (vval T (x 0)) a ->
  vval T (lop_out k LSelect row) = if a then vval T (x 1) else vval T (x 2).
Proof. exact lop_select_l. Qed.
Print Assumptions logic_select_sound.

Theorem logic_complete : forall P (L : lenv P) T k o x row,
  wf_comp k (lop_args o + 1) -> (forall i, 0 <= i < lop_args o -> outside k 1 row (x i)) ->
  (o = LSelect -> exists a, is_bit (vval T (x 0)) a) ->
  let T' := lop_assign k o x row T in
  sat L T' (lop_circuit k o x row) /\ frame k 1 row T T'.
Proof.
  intros P L T k o x row Hwf Ho Hs T'.
  destruct (lop_complete_l P L T k o x row Hwf Ho) as [S [Fr _]]; [|split; assumption].
  intros E. destruct (Hs E) as [[] B]; [right|left]; exact B.
Qed.
Print Assumptions logic_complete.

(** Without the condition being a bit, an honest selection is rejected. *)
Theorem logic_select_complete_refuted :
  exists (T : table P97) (x : Z -> var),
    (forall i, 0 <= i < 3 -> outside (std_comp 4) 1 0 (x i)) /\
    ~ sat (noL P97) (lop_assign (std_comp 4) LSelect x 0 T) (lop_circuit (std_comp 4) LSelect x 0).
Proof.
  exists (intab P97 [2; 3; 4]), pin. split; [intros; apply pin_outside|].
  intros S. apply lop_cells in S. destruct S as [_ S]. apply (f_equal fval) in S. vm_compute in S. discriminate.
Qed.
Print Assumptions logic_select_complete_refuted.

(** The lookup versions force both inputs to be bits. *)
Theorem lookup_logic_sound : forall P (T : table P) k is_and x row,
  sat lib_env T (lk_circuit k is_and x row) ->
  exists a b, is_bit (vval T (x 0)) a /\ is_bit (vval T (x 1)) b /\
    is_bit (vval T (lk_out k row)) (if is_and then a && b else xorb a b).
Proof. exact lk_sound_l. Qed.
Print Assumptions lookup_logic_sound.

Theorem lookup_logic_complete : forall P (T : table P) k (is_and : bool) x row a b,
  wf_comp k 3 -> outside k 1 row (x 0) -> outside k 1 row (x 1) ->
  is_bit (vval T (x 0)) a -> is_bit (vval T (x 1)) b ->
  let T' := lk_assign k is_and x row T in
  sat lib_env T' (lk_circuit k is_and x row) /\ frame k 1 row T T' /\
  is_bit (vval T' (lk_out k row)) (if is_and then a && b else xorb a b).
Proof. exact lk_complete_l. Qed.
Print Assumptions lookup_logic_complete.

Example logic_example : forall o,
  let k := std_comp (lop_args o + 1) in
  let T := lop_assign k o pin 5 (intab P97 [1; 1; 0]) in
  sat (noL P97) T (lop_circuit k o pin 5) /\ is_bit (vval T (lop_out k o 5)) (truth o true true false).
Proof.
  intros o k T.
  assert (S : sat (noL P97) T (lop_circuit k o pin 5)).
  { apply logic_complete.
    - apply wf_std. destruct o; cbn; lia.
    - intros i _. apply pin_outside.
    - intros _. exists true. reflexivity. }
  split; [exact S|].
  apply (logic_sound _ _ _ _ _ _ _ true true false S); intros; destruct o; vm_compute; reflexivity.
Qed.

Example lookup_logic_example :
  let T := lk_assign (std_comp 3) false pin 2 (intab P97 [1; 0]) in
  sat lib_env T (lk_circuit (std_comp 3) false pin 2) /\ is_bit (vval T (lk_out (std_comp 3) 2)) true.
Proof.
  destruct (lookup_logic_complete P97 (intab P97 [1; 0]) (std_comp 3) false pin 2 true false) as [S [_ E]];
    try apply pin_outside; try reflexivity; [apply wf_std; lia|split; assumption].
Qed.

(** A third value is rejected whatever the remaining cells hold. *)
Example lookup_logic_rejects : forall T : table P97,
  vval T (pin 0) = ofZ 2 -> ~ sat lib_env T (lk_circuit (std_comp 3) true pin 2).
Proof.
  intros T E S. apply lookup_logic_sound in S. destruct S as [a [_ [Ha _]]]. unfold is_bit in Ha.
  rewrite E in Ha. apply (f_equal fval) in Ha. destruct a; vm_compute in Ha; discriminate.
Qed.
