(** What a macro name means after some directives. *)
From Verif Require Import Base ScopeModel MacroTableModel.
Section Spec.
Variable def : Type.
Definition macros := name -> option (def * bool).   (* definition, predefined? *)
Definition set_macro (m : macros) (n : name) (x : option (def * bool)) : macros := fun k => if name_eq k n then x else m k.
(** The predefined macros. *)
Definition predefined (bs : list (name * def)) : macros :=
  fold_left (fun m '(n, d) => set_macro m n (Some (d, true))) bs (fun _ => None).
(** The macros after a list of directives; defining a predefined name is an error. *)
Fixpoint after (m : macros) (ds : list (directive def)) : outcome macros :=
  match ds with
  | [] => Done m
  | Define n d :: ds => match m n with Some (_, true) => Reported | _ => after (set_macro m n (Some (d, false))) ds end
  | Undef n :: ds => after (set_macro m n None) ds
  end.
End Spec.
