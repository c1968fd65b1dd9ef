(** What a name means: scopes are lists of declarations, newest first. *)
From Verif Require Import Base ScopeModel.

(** The scopes open after a history, innermost first; [true] marks the scope of a function. *)
Fixpoint opened (scopes : list (bool * list decl)) (es : list event) : option (list (bool * list decl)) :=
  match es with
  | [] => Some scopes
  | Enter f :: es => opened ((f, []) :: scopes) es
  | Leave :: es => match scopes with [] => None | _ :: outer => opened outer es end
  | Declare d :: es => match scopes with [] => None | (f, ds) :: outer => opened ((f, d :: ds) :: outer) es end
  end.

(** The latest declaration of [n] in a scope. *)
Definition latest (n : name) (ds : list decl) : option decl :=
  find (fun d => if name_eq (d_name d) n then true else false) ds.

(** The declaration [n] refers to: the latest one of the innermost scope that has one, up to
    the scope of the enclosing function, or else the global one. *)
Fixpoint meaning (global : name -> option decl) (scopes : list (bool * list decl)) (n : name) : option decl :=
  match scopes with
  | [] => global n
  | (f, ds) :: outer =>
      match latest n ds with
      | Some d => Some d
      | None => if f then global n else meaning global outer n
      end
  end.
