(** The rules for command lines (Microsoft's documentation of C command-line arguments),
    as a grammar.  92 is the backslash, 34 the double quote. *)
From Verif Require Import Base.

Definition white (c : Z) : Prop := c = 32 \/ 9 <= c <= 13.

Definition starts_with (c : Z) (t : list Z) : Prop := exists r, t = c :: r.

(** [arg q text value e]: [text] is the rest of an argument whose value is [value]; [q]: we
    are inside of quotes at its beginning; [e]: and still at its end. *)
Inductive arg : bool -> list Z -> list Z -> bool -> Prop :=
| arg_end : forall q, arg q [] [] q
(* any other character stands for itself; white space only inside of quotes *)
| arg_char : forall q c t v e, c <> 92 -> c <> 34 -> (q = false -> ~ white c) -> arg q t v e -> arg q (c :: t) (c :: v) e
(* backslashes that do not precede a quote are themselves *)
| arg_slashes : forall q n t v e, (0 < n)%nat -> ~ starts_with 92 t -> ~ starts_with 34 t -> arg q t v e ->
    arg q (repeat 92 n ++ t) (repeat 92 n ++ v) e
(* an even number before a quote: half of them, and the quote is a delimiter *)
| arg_even : forall q n t v e, (0 < n)%nat -> starts_with 34 t -> arg q t v e ->
    arg q (repeat 92 (2 * n) ++ t) (repeat 92 n ++ v) e
(* an odd number before a quote: half of them, and a literal quote *)
| arg_odd : forall q n t v e, arg q t v e -> arg q (repeat 92 (2 * n + 1) ++ 34 :: t) (repeat 92 n ++ 34 :: v) e
| arg_open : forall t v e, arg true t v e -> arg false (34 :: t) v e
| arg_close : forall t v e, ~ starts_with 34 t -> arg false t v e -> arg true (34 :: t) v e
(* a doubled quote inside of quotes is a literal quote *)
| arg_double : forall t v e, arg true t v e -> arg true (34 :: 34 :: t) (34 :: v) e.

(** A command line: arguments separated by white space; only the last may lack its closing quote. *)
Inductive line : list Z -> list (list Z) -> Prop :=
| line_nil : line [] []
| line_white : forall c t args, white c -> line t args -> line (c :: t) args
| line_last : forall a v e, a <> [] -> arg false a v e -> line a [v]
| line_arg : forall a v c t args, a <> [] -> arg false a v false -> white c -> line t args ->
    line (a ++ c :: t) (v :: args).

(** The usual way to quote one argument: everything in quotes, backslashes doubled in front of a
    quote, quotes escaped by a backslash. *)
Fixpoint escape (slashes : nat) (a : list Z) : list Z :=
  match a with
  | [] => repeat 92 (2 * slashes) ++ [34]
  | c :: a =>
      if c =? 92 then escape (S slashes) a
      else if c =? 34 then repeat 92 (2 * slashes + 1) ++ 34 :: escape 0 a
      else repeat 92 slashes ++ c :: escape 0 a
  end.
Definition quote (a : list Z) : list Z := 34 :: escape 0 a.

Fixpoint join (args : list (list Z)) : list Z :=
  match args with [] => [] | [a] => quote a | a :: rest => quote a ++ 32 :: join rest end.
