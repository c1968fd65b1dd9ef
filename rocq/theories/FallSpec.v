(** C46: functions whose missing-return warning can be relied on.  What runs next is StmtSpec.v. *)
From Coq Require Import List ZArith Bool.
From Verif Require Import IntTypes CSpec LowerSpec BranchSpec StmtSpec StmtRulesSpec.
Import ListNotations.

(** [break]s that leave the loop or switch around [s], and [continue]s of the loop around [s]. *)
Fixpoint breaks (s : stmt) : bool :=
  match s with
  | SBreak => true
  | SSkip | SEffect _ | SContinue | SReturn _ | SGoto _ | SWhile _ _ | SDo _ _ | SFor _ _ _ | SSwitch _ _ => false
  | SSeq a b | SIfElse _ a b => breaks a || breaks b
  | SIf _ a | SCase _ _ a | SDefault a | SLabel _ a => breaks a
  end.
Fixpoint continues (s : stmt) : bool :=
  match s with
  | SContinue => true
  | SSkip | SEffect _ | SBreak | SReturn _ | SGoto _ | SWhile _ _ | SDo _ _ | SFor _ _ _ => false
  | SSeq a b | SIfElse _ a b => continues a || continues b
  | SIf _ a | SCase _ _ a | SDefault a | SLabel _ a | SSwitch _ a => continues a
  end.

(** Labels ([labels]) only in the outermost block of the function, [case] and [default] ([cases]) only in the block of
    their switch, and [do] loops without [break] and [continue] of their own. *)
Fixpoint simple (labels cases : bool) (s : stmt) : Prop :=
  match s with
  | SSkip | SEffect _ | SBreak | SContinue | SReturn _ | SGoto _ => True
  | SSeq a b => simple labels cases a /\ simple labels cases b
  | SIf _ a | SWhile _ a | SFor _ _ a => simple false false a
  | SIfElse _ a b => simple false false a /\ simple false false b
  | SDo a _ => simple false false a /\ breaks a = false /\ continues a = false
  | SSwitch _ a => simple false true a
  | SCase _ _ a | SDefault a => cases = true /\ simple labels cases a
  | SLabel _ a => labels = true /\ simple labels cases a
  end.
Definition well_structured (body : stmt) : Prop := simple true false body.

(** The values of the variables fit their types. *)
Definition values_fit (n : nat) (ty : typing) (env : values) : Prop := forall x, (x < n)%nat -> object_value (ty x) (env x).

(** Statements that obviously do not run on to what follows them. *)
Fixpoint obvious (s : stmt) : Prop :=
  match s with
  | SReturn _ | SGoto _ => True
  | SSeq _ b => obvious b
  | SIfElse _ a b => obvious a /\ obvious b
  | SWhile (BLit t p) a => value_of_bits t p <> 0%Z /\ breaks a = false
  | SFor None _ a => breaks a = false
  | SSwitch _ a => obvious a /\ own_defaults a <> 0%nat /\ breaks a = false
  | SDo a _ | SCase _ _ a | SDefault a | SLabel _ a => obvious a
  | _ => False
  end.
