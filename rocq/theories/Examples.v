(** Small concrete tables used to show that the hypotheses of the theorems can
    be met.  Nothing here models code. *)
From Coq Require Import ZArith List Lia Bool.
From Verif Require Import Base Field Plonk PlonkFacts.
Import ListNotations.
Open Scope Z_scope.

(** Public-input cell [i] of row 0: never inside a component. *)
Definition pin (i : Z) : var := mkVar 0 i false CPub.

(** A table holding the given public inputs, zero elsewhere. *)
Definition intab (P : params) (l : list Z) : table P :=
  fun ty col row => match ty with CPub => ofZ (znth 0 l row) | _ => f0 end.

(** The same with given constants in constant column 0, starting at row 0. *)
Definition intab_c (P : params) (l k : list Z) : table P :=
  fun ty col row =>
    match ty with
    | CPub => ofZ (znth 0 l row)
    | CConst => if col =? 0 then ofZ (znth 0 k row) else f0
    | _ => f0
    end.

Lemma pin_outside : forall c n r i, outside c n r (pin i).
Proof. intros c n r i [H _]. discriminate. Qed.

(** No lookup tables. *)
Definition noL (P : params) : lenv P := fun _ _ => False.

(** A decision procedure for [sat] on lookup-free command lists, used for
    concrete tables only. *)
Definition holdsb {P} (T : table P) (c : cmd P) : bool :=
  match c with
  | Gate cs rows => forallb (fun r => forallb (fun e => feqb (eval T r e) f0) cs) rows
  | LookupGate _ rows => match rows with [] => true | _ => false end
  | Copy a b => feqb (vval T a) (vval T b)
  | SetConst col row v => feqb (T CConst col row) v
  end.
Definition satb {P} (T : table P) (cs : list (cmd P)) : bool := forallb (holdsb T) cs.

Lemma satb_sat : forall P (L : lenv P) (T : table P) cs, satb T cs = true -> sat L T cs.
Proof.
  intros P L T cs H c Hc. unfold satb in H. rewrite forallb_forall in H. specialize (H c Hc).
  destruct c; cbn [holdsb holds] in *.
  - intros r Hr e He. rewrite forallb_forall in H. specialize (H r Hr).
    rewrite forallb_forall in H. apply feqb_eq. apply H. exact He.
  - destruct rows; [|discriminate]. intros r [].
  - apply feqb_eq. exact H.
  - apply feqb_eq. exact H.
Qed.

Lemma fval_neq : forall P (a b : F P), fval a <> fval b -> a <> b.
Proof. intros P a b H E. apply H. rewrite E. reflexivity. Qed.

(** Constants of a command list, decided. *)
Definition consts_inb {P} (T : table P) (cs : list (cmd P)) : bool :=
  forallb (fun c => match c with SetConst col row v => feqb (T CConst col row) v | _ => true end) cs.
Lemma consts_inb_ok : forall P (T : table P) cs, consts_inb T cs = true -> consts_in T cs.
Proof.
  intros P T cs H col row v Hin. unfold consts_inb in H. rewrite forallb_forall in H.
  specialize (H _ Hin). cbn in H. apply feqb_eq. exact H.
Qed.
