(** The splitting of a preprocessed file into global-scope entries (main.c 2842-3176).
    A file is the list of its tokens, reduced to what the splitter looks at.  Left out: `#pragma pack`
    (files with that token are not covered), the table of static declarations filled on the way, and
    the replacement of `__func__` by the name of the function. *)
From Verif Require Import Base.

Inductive bracket : Set := Paren | Index | Curly.
Inductive token : Set :=
  | Opens (b : bracket) | Closes (b : bracket) | Semicolon | Comma | Equals
  | Tag                       (* struct, union, enum *)
  | Declspec | Identifier
  | Basic                     (* a keyword that is a type *)
  | Static_assert | Func_name (* __func__, __FUNCTION__ *)
  | Other.

Definition same (a b : bracket) : bool := match a, b with Paren, Paren | Index, Index | Curly, Curly => true | _, _ => false end.

(** skip_until_tokens_are_balanced (parse.c 6-32) after the opening token: what is left, or None for
    the diagnosis of an unmatched bracket.  Only brackets of one kind are counted. *)
Fixpoint skip (b : bracket) (count : nat) (ts : list token) : option (list token) :=
  match ts with
  | [] => None
  | Closes c :: ts' => if same c b then match count with S O | O => Some ts' | S n => skip b n ts' end else skip b count ts'
  | Opens c :: ts' => skip b (if same c b then S count else count) ts'
  | _ :: ts' => skip b count ts'
  end.
Definition skipped (b : bracket) (ts : list token) : outcome (list token) := match skip b 1 ts with Some r => Done r | None => Reported end.

(** The same when the opening token is still to come and may be missing (main.c 2883, 2919, 3089). *)
Definition skip_parens (ts : list token) : outcome (list token) := match ts with Opens Paren :: ts' => skipped Paren ts' | _ => Done ts end.

(** `while(peek_token_eat(context, TOKEN_declspec))` (main.c 2881-2885). *)
Fixpoint declspecs (fuel : nat) (ts : list token) : outcome (list token) :=
  match fuel with
  | O => Crash
  | S fuel => match ts with Declspec :: ts' => obind (skip_parens ts') (declspecs fuel) | _ => Done ts end
  end.

(** After struct, union or enum (main.c 2880-2915). *)
Definition after_tag (ts : list token) : outcome (list token) :=
  obind (declspecs (S (length ts)) ts) (fun ts1 =>
  let ts2 := match ts1 with Identifier :: r => r | _ => ts1 end in
  match ts2 with Opens Curly :: ts3 => skipped Curly ts3 | _ => Done ts2 end).

(** The body of a function (main.c 3026-3070): is `__func__` met before the end? *)
Fixpoint mentions_name (count : nat) (ts : list token) : bool :=
  match ts with
  | [] => false
  | Closes Curly :: ts' => match count with S O | O => false | S n => mentions_name n ts' end
  | Opens Curly :: ts' => mentions_name (S count) ts'
  | Func_name :: _ => true
  | _ :: ts' => mentions_name count ts'
  end.

(** An initializer (main.c 2986-3013): what is left, and whether it ended in a semicolon. *)
Fixpoint initializer (fuel : nat) (ts : list token) : outcome (bool * list token) :=
  match fuel with
  | O => Crash
  | S fuel =>
    match ts with
    | [] => Done (false, [])
    | Opens b :: ts' => obind (skipped b ts') (initializer fuel)
    | Comma :: ts' => Done (false, ts')
    | Semicolon :: ts' => Done (true, ts')
    | _ :: ts' => initializer fuel ts'
    end
  end.

(** One global-scope entry (main.c 2873-3094): what is left after it. *)
Fixpoint entry (fuel : nat) (got_type got_identifier : bool) (ts : list token) : outcome (list token) :=
  match fuel with
  | O => Crash
  | S fuel =>
    match ts with
    | [] => Done []
    | Basic :: ts' => entry fuel true got_identifier ts'
    | Tag :: ts' => obind (after_tag ts') (entry fuel true got_identifier)
    | Declspec :: ts' => obind (skip_parens ts') (entry fuel got_type got_identifier)
    | Identifier :: ts' => if got_type then entry fuel got_type true ts' else entry fuel true got_identifier ts'
    | Equals :: ts' => obind (initializer (S (length ts')) ts') (fun r => if fst r then Done (snd r) else entry fuel got_type false (snd r))
    | Comma :: ts' => entry fuel got_type false ts'
    | Semicolon :: ts' => Done ts'
    | Opens Curly :: ts' => if mentions_name 1 ts' && negb got_identifier then Reported else skipped Curly ts'
    | Opens Paren :: ts' => if got_identifier then obind (skipped Paren ts') (entry fuel got_type got_identifier) else entry fuel got_type got_identifier ts'
    | Opens Index :: ts' => obind (skipped Index ts') (entry fuel got_type got_identifier)
    | Static_assert :: ts' => obind (skip_parens ts') (entry fuel got_type got_identifier)
    | _ :: ts' => entry fuel got_type got_identifier ts'
    end
  end.

(** The loop over the file (main.c 2853-3174): the token arrays of the work packages. *)
Fixpoint chunks_from (fuel : nat) (ts : list token) : outcome (list (list token)) :=
  match fuel with
  | O => Crash
  | S fuel =>
    match ts with
    | [] => Done []
    | _ => obind (entry (S (length ts)) false false ts) (fun rest =>
           obind (chunks_from fuel rest) (fun cs => Done (firstn (length ts - length rest) ts :: cs)))
    end
  end.
Definition chunks (ts : list token) : outcome (list (list token)) := chunks_from (S (length ts)) ts.
