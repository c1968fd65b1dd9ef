(** C45: C's constraints on statements (C11 6.8.1, 6.8.4.2, 6.8.6): a compiler has to diagnose a
    function that violates one of them. *)
From Coq Require Import List ZArith Bool.
From Verif Require Import IntTypes CSpec LowerSpec BranchSpec StmtSpec.
Import ListNotations.
Open Scope Z_scope.

(** The names of the labels of a function, and of the labels its gotos name. *)
Fixpoint label_names (s : stmt) : list nat :=
  match s with
  | SSkip | SEffect _ | SBreak | SContinue | SReturn _ | SGoto _ => []
  | SSeq a b | SIfElse _ a b => label_names a ++ label_names b
  | SIf _ a | SWhile _ a | SDo a _ | SFor _ _ a | SSwitch _ a | SCase _ _ a | SDefault a => label_names a
  | SLabel n a => n :: label_names a
  end.
Fixpoint goto_names (s : stmt) : list nat :=
  match s with
  | SSkip | SEffect _ | SBreak | SContinue | SReturn _ => []
  | SSeq a b | SIfElse _ a b => goto_names a ++ goto_names b
  | SIf _ a | SWhile _ a | SDo a _ | SFor _ _ a | SSwitch _ a | SCase _ _ a | SDefault a | SLabel _ a => goto_names a
  | SGoto n => [n]
  end.

(** The case constants that belong to the switch around [s], in its type, and its default labels. *)
Fixpoint own_cases (t : ity) (s : stmt) : list Z :=
  match s with
  | SSkip | SEffect _ | SBreak | SContinue | SReturn _ | SGoto _ | SSwitch _ _ => []
  | SSeq a b | SIfElse _ a b => own_cases t a ++ own_cases t b
  | SIf _ a | SWhile _ a | SDo a _ | SFor _ _ a | SDefault a | SLabel _ a => own_cases t a
  | SCase t0 p a => convert t (value_of_bits t0 p) :: own_cases t a
  end.
Fixpoint own_defaults (s : stmt) : nat :=
  match s with
  | SSkip | SEffect _ | SBreak | SContinue | SReturn _ | SGoto _ | SSwitch _ _ => 0
  | SSeq a b | SIfElse _ a b => own_defaults a + own_defaults b
  | SIf _ a | SWhile _ a | SDo a _ | SFor _ _ a | SCase _ _ a | SLabel _ a => own_defaults a
  | SDefault a => S (own_defaults a)
  end.

Section Rules.
Variable ty : typing.
Variable rt : option ity.

(** [loop]: inside of a loop; [switch]: inside of a switch. *)
Fixpoint rules (loop switch : bool) (s : stmt) : Prop :=
  match s with
  | SSkip | SEffect _ | SGoto _ => True
  | SSeq a b | SIfElse _ a b => rules loop switch a /\ rules loop switch b
  | SIf _ a | SLabel _ a => rules loop switch a
  | SWhile _ a | SDo a _ | SFor _ _ a => rules true switch a
  | SBreak => loop = true \/ switch = true                                     (* 6.8.6.3 *)
  | SContinue => loop = true                                                   (* 6.8.6.2 *)
  | SSwitch e a =>                                                             (* 6.8.4.2 *)
      NoDup (own_cases (promote (btype ty e)) a) /\ (own_defaults a <= 1)%nat /\ rules loop true a
  | SCase _ _ a | SDefault a => switch = true /\ rules loop switch a           (* 6.8.1 *)
  | SReturn e => e = None <-> rt = None                                        (* 6.8.6.4 *)
  end.

Definition allowed (body : stmt) : Prop :=
  rules false false body /\ NoDup (label_names body) /\ incl (goto_names body) (label_names body).
End Rules.

(** A property of all expressions of a statement. *)
Definition in_effect (Q : bexpr -> Prop) (f : effect) : Prop := match f with Evaluate e | Assign _ e => Q e end.
Fixpoint expressions (Q : bexpr -> Prop) (s : stmt) : Prop :=
  match s with
  | SSkip | SBreak | SContinue | SGoto _ => True
  | SEffect f => in_effect Q f
  | SSeq a b => expressions Q a /\ expressions Q b
  | SIf e a | SWhile e a | SDo a e | SSwitch e a => Q e /\ expressions Q a
  | SIfElse e a b => Q e /\ expressions Q a /\ expressions Q b
  | SFor c f a => all Q c /\ all (in_effect Q) f /\ expressions Q a
  | SCase _ _ a | SDefault a | SLabel _ a => expressions Q a
  | SReturn e => all Q e
  end.
