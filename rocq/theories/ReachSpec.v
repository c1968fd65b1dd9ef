(** What C34 asks for. *)
From Verif Require Import Base ScopeModel ReachModel.

(** Reachable through references from the roots. *)
Inductive reachable (g : nat -> declaration) (roots : list nat) : nat -> Prop :=
  | by_root : forall d, In d roots -> reachable g roots d
  | by_reference : forall d e, reachable g roots d -> In e (refs (g d)) -> reachable g roots e.

(** There are finitely many declarations, below [n]. *)
Definition finite (n : nat) (g : nat -> declaration) (roots : list nat) : Prop :=
  (forall d, In d roots -> (d < n)%nat) /\ (forall d e, (d < n)%nat -> In e (refs (g d)) -> (e < n)%nat).

(** A defined function that has code of its own. *)
Definition has_code (d : declaration) : bool := is_function d && defined d && negb (intrinsic d) && negb (inline_asm d).
(** A variable with an initializer. *)
Definition has_data (d : declaration) : bool := negb (is_function d) && defined d.
(** Something another module has to provide. *)
Definition is_import (d : declaration) : bool :=
  if is_function d then negb (intrinsic d) && negb (defined d) && negb (exported d) else negb (defined d) && external d.
