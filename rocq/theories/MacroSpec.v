(** What C38 needs besides the model: parentheses and which macros stand in a table. *)
From Coq Require Import List ZArith Lia.
From Verif Require Import MacroModel.
Import ListNotations.
Open Scope Z_scope.

(** Opening minus closing parentheses. *)
Definition value (t : tok) : Z := match t with Open => 1 | Close => -1 | _ => 0 end.
Fixpoint total (l : list tok) : Z := match l with [] => 0 | t :: l1 => value t + total l1 end.
(** Every opening parenthesis is closed: whatever is cut off in front, no more are opened than closed. *)
Definition closed (l : list tok) : Prop := forall a b, l = a ++ b -> total b <= 0.
(** The parentheses of a text. *)
Definition parens (l : list tok) : list tok := filter (fun t => match t with Open | Close => true | _ => false end) l.
(** The tokens a replacement list mentions itself. *)
Definition written (b : list replacement) : list tok := flat_map (fun r => match r with Tokens l => l | Paste _ (inr t) => [t] | _ => [] end) b.

Definition given (t : option tok) : list tok := match t with Some t => [t] | None => [] end.
(** Putting texts together with ## keeps their parentheses. *)
Definition keeps_parens (paste : option tok -> option tok -> list tok) : Prop := forall t u, parens (paste t u) = parens (given t ++ given u).
(** There are finitely many macros. *)
Definition finite (table : nat -> option macro) : Prop := exists names, forall n m, table n = Some m -> In n names.
