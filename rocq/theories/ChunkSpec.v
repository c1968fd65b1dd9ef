(** What C43 asks for. *)
From Verif Require Import Base ChunkModel.

(** The brackets that are open after some tokens, innermost first; None if one was closed that was
    not open. *)
Fixpoint open_after (st : list bracket) (ts : list token) : option (list bracket) :=
  match ts with
  | [] => Some st
  | Opens b :: ts' => open_after (b :: st) ts'
  | Closes b :: ts' => match st with c :: st' => if same b c then open_after st' ts' else None | [] => None end
  | _ :: ts' => open_after st ts'
  end.
Definition nested (file : list token) : Prop := open_after [] file = Some [].

(** Only parentheses are open. *)
Definition parens_only (st : list bracket) : Prop := Forall (fun b => b = Paren) st.

(** Between an `=` and the next comma or semicolon, all outside of brackets. *)
Fixpoint in_initializer (st : list bracket) (init : bool) (ts : list token) : bool :=
  match ts with
  | [] => init
  | t :: ts' =>
      in_initializer (match open_after st [t] with Some st' => st' | None => st end)
        (match st, t with [], Equals => true | [], (Comma | Semicolon) => false | _, _ => init end) ts'
  end.

(** What C never does outside of function bodies, type definitions and array sizes: a semicolon
    between parentheses; or a brace between parentheses that neither belongs to an initializer nor
    follows `struct` or `struct name`. *)
Definition calm (file : list token) : Prop :=
  (forall a b st, file = a ++ Semicolon :: b -> open_after [] a = Some st -> parens_only st -> st = []) /\
  (forall a b st, file = a ++ Opens Curly :: b -> open_after [] a = Some st -> parens_only st ->
     st = [] \/ in_initializer [] false a = true \/ exists a', a = a' ++ [Tag] \/ a = a' ++ [Tag; Identifier]).
