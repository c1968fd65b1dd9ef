(** What C19 says, independently of the model: which declarations at global scope can be
    processed, whatever the order. *)
From Coq Require Import List Bool Arith. Import ListNotations.

(** Identifiers are numbers standing for their text, compilation units are numbered. *)
Definition atom := nat.

(** What processing a declaration asks for: a declared identifier, a complete struct or union or
    enum, the size of a declared array (in [sizeof array]). *)
Inductive demand : Set :=
| Identifier (a : atom)
| Compound (a : atom)
| Array_size (a : atom).

(** What a global declaration does, in the order of its text.  [is_static]: it is written with the
    keyword. *)
Inductive action : Set :=
| Need (d : demand)
| Declare (a : atom) (is_static : bool)        (* int a;  typedef int a;  int a();  int a[]; *)
| Declare_array (a : atom) (is_static : bool)  (* int a[3]; *)
| Define_compound (a : atom)                   (* struct a {int b;} *)
| Need_in_list (a : atom) (d : demand)         (* inside of the braces of int a[] = {...} *)
| Initialize_list (a : atom)                   (* the end of int a[] = {1, 2, 3} *)
| Initialize_string (a : atom).                (* char a[] = "abc" *)

Record declaration : Set := mkdeclaration { in_unit : nat; actions : list action }.
Definition program := list declaration.

(** Identifiers with internal linkage belong to their compilation unit, all others and the tags of
    structures to the whole program. *)
Inductive entity : Set :=
| Internal (u : nat) (a : atom)
| External (a : atom)
| Tag (a : atom).

Inductive fact : Set :=
| Known (n : entity)
| Size_known (n : entity).

Section Meaning.
(** The identifiers of each unit that have internal linkage. *)
Variable internal : nat -> atom -> bool.
Variable p : program.

Definition visible (u : nat) (a : atom) : entity := if internal u a then Internal u a else External a.

Definition demands (u : nat) (d : demand) : list fact :=
  match d with
  | Identifier a => [Known (visible u a)]
  | Compound a => [Known (Tag a)]
  | Array_size a => [Known (visible u a); Size_known (visible u a)]
  end.

(** What an action needs and what it makes known. *)
Definition needs (u : nat) (x : action) : list fact :=
  match x with Need d | Need_in_list _ d => demands u d | _ => [] end.
Definition gives (u : nat) (x : action) : list fact :=
  match x with
  | Declare a _ => [Known (visible u a)]
  | Declare_array a _ => [Known (visible u a); Size_known (visible u a)]
  | Define_compound a => [Known (Tag a)]
  | Initialize_list a | Initialize_string a => [Size_known (visible u a)]
  | _ => []
  end.

(** What becomes known if declarations are processed as far as possible: an action takes place once
    everything needed in front of it is known. *)
Inductive resolvable : fact -> Prop :=
| resolve : forall e before x after f,
    In e p -> actions e = before ++ x :: after -> In f (gives (in_unit e) x) ->
    (forall y g, In y before -> In g (needs (in_unit e) y) -> resolvable g) ->
    resolvable f.

(** A declaration can be processed. *)
Definition processable (e : declaration) : Prop :=
  forall y g, In y (actions e) -> In g (needs (in_unit e) y) -> resolvable g.
End Meaning.
