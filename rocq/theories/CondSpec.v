(** What conditional inclusion should do: sections of groups. *)
From Verif Require Import Base CondModel.

(** A file is a list of lines and sections; a section is an opening directive, its group and
    what follows: [#elif] groups, an [#else] group, [#endif]. *)
Inductive group : Type :=
| Nothing
| TextLine (t : nat) (rest : group)
| CommandLine (d : nat) (rest : group)
| NullLine (rest : group)
| Section_ (f : nat) (o : opener) (body : group) (m : more) (rest : group)
with more : Type :=
| EndifLine
| ElifGroup (c : condition) (body : group) (m : more)
| ElseGroup (body : group).

(** The lines of a group, in order. *)
Fixpoint lines (g : group) : list line :=
  match g with
  | Nothing => []
  | TextLine t g => Text t :: lines g
  | CommandLine d g => Command d :: lines g
  | NullLine g => Null :: lines g
  | Section_ f o body m g => Opening f o :: lines body ++ lines_more f m ++ lines g
  end
with lines_more (f : nat) (m : more) : list line :=
  match m with
  | EndifLine => [Endif f]
  | ElifGroup c body m => Elif f c :: lines body ++ lines_more f m
  | ElseGroup body => Else f :: lines body ++ [Endif f]
  end.

Definition value (o : opener) : condition :=
  match o with If c => c | Ifdef (Some b) => Value b | Ifdef None => Missing end.

(** The effect of a group that is processed: of each section the first group whose condition
    is true, or else the [#else] group; later conditions are not evaluated. *)
Fixpoint expected (g : group) : outcome (list effect) :=
  match g with
  | Nothing => Done []
  | TextLine t g => obind (expected g) (fun o => Done (Emit t :: o))
  | CommandLine d g => obind (expected g) (fun o => Done (Do d :: o))
  | NullLine g => expected g
  | Section_ _ o body m g =>
      obind match value o with Value true => expected body | Value false => expected_more m | _ => Reported end (fun a =>
      obind (expected g) (fun b => Done (a ++ b)))
  end
with expected_more (m : more) : outcome (list effect) :=
  match m with
  | EndifLine => Done []
  | ElifGroup c body m => match c with Value true => expected body | Value false => expected_more m | _ => Reported end
  | ElseGroup body => expected body
  end.

(** No conditional directive lacks its condition. *)
Fixpoint complete (g : group) : Prop :=
  match g with
  | Nothing => True
  | TextLine _ g | CommandLine _ g | NullLine g => complete g
  | Section_ _ o body m g => value o <> Missing /\ complete body /\ complete_more m /\ complete g
  end
with complete_more (m : more) : Prop :=
  match m with
  | EndifLine => True
  | ElifGroup c body m => c <> Missing /\ complete body /\ complete_more m
  | ElseGroup body => complete body
  end.

(** No null directive at all; no null directive in a group that is skipped. *)
Fixpoint no_null (g : group) : Prop :=
  match g with
  | Nothing => True
  | TextLine _ g | CommandLine _ g => no_null g
  | NullLine _ => False
  | Section_ _ _ body m g => no_null body /\ no_null_more m /\ no_null g
  end
with no_null_more (m : more) : Prop :=
  match m with
  | EndifLine => True
  | ElifGroup _ body m => no_null body /\ no_null_more m
  | ElseGroup body => no_null body
  end.
Fixpoint no_skipped_null (g : group) : Prop :=
  match g with
  | Nothing => True
  | TextLine _ g | CommandLine _ g | NullLine g => no_skipped_null g
  | Section_ _ o body m g =>
      match value o with Value true => no_skipped_null body /\ no_null_more m | _ => no_null body /\ no_skipped_null_more m end /\ no_skipped_null g
  end
with no_skipped_null_more (m : more) : Prop :=
  match m with
  | EndifLine => True
  | ElifGroup c body m => match c with Value true => no_skipped_null body /\ no_null_more m | _ => no_null body /\ no_skipped_null_more m end
  | ElseGroup body => no_skipped_null body
  end.
