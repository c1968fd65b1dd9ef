(** When two definitions of a macro are the same. *)
From Verif Require Import Base ScopeModel DefineModel.

(** What stands behind the macro's name, without white space and comments. *)
Definition stripped (ts : list token) : list token := filter (fun t => negb (is_space t)) ts.
(** A parenthesis directly behind the name starts a parameter list. *)
Definition opens (ts : list token) : bool := match ts with Open :: _ => true | _ => false end.
Definition same_text (a b : list token) : Prop := opens a = opens b /\ stripped a = stripped b.

(** Definitions without the operators [#] and [##], and without a parameter that is called
    [__VA_ARGS__]. *)
Fixpoint up_to_closed (ts : list token) : list token :=
  match ts with [] => [] | Closed :: _ => [] | t :: ts => t :: up_to_closed ts end.
Definition plain (ts : list token) : Prop :=
  ~ In Hash ts /\ ~ In HashHash ts /\ (opens ts = true -> ~ In (Ident va_args) (up_to_closed ts)).
