(** Model of the command line parser, windows.c 825-941. *)
From Verif Require Import Base.

(** std.c 959-969 [u8_is_whitespace_or_newline] *)
Definition u8_is_whitespace_or_newline (c : Z) : bool :=
  (c =? 11) || (c =? 9) || (c =? 12) || (c =? 32) || (c =? 10) || (c =? 13).

(** windows.c 870-874: count the slashes; the rest of the line. *)
Fixpoint count_slashes (line : list Z) : nat * list Z :=
  match line with
  | c :: rest => if c =? 92 then let '(n, r) := count_slashes rest in (S n, r) else (O, line)
  | [] => (O, [])
  end.

(** windows.c 856-925: the loop.  The result is the number of arguments begun and the bytes
    written.  Running out of [fuel], or the failing assert of 858, is [Crash]. *)
Fixpoint loop (fuel : nat) (line : list Z) (in_quotes in_argument : bool) : outcome (nat * list Z) :=
  match fuel with
  | O => Crash
  | S fuel =>
      match line with
      | [] => Done (O, [0])
      | c :: rest =>
          if in_quotes && negb in_argument then Crash else
          let begun := if in_argument then O else 1%nat in
          let emit bytes r := obind r (fun '(n, out) => Done ((begun + n)%nat, bytes ++ out)) in
          if c =? 92 then
            let '(amount_of_slashes, after) := count_slashes line in
            match after with
            | 34 :: after_quote =>
                if Nat.odd amount_of_slashes
                then emit (repeat 92 (Nat.div2 amount_of_slashes) ++ [34]) (loop fuel after_quote in_quotes true)
                else emit (repeat 92 (Nat.div2 amount_of_slashes)) (loop fuel after in_quotes true)
            | _ => emit (repeat 92 amount_of_slashes) (loop fuel after in_quotes true)
            end
          else if c =? 34 then
            if negb in_quotes then emit [] (loop fuel rest true true)
            else match rest with
                 | 34 :: rest' => emit [34] (loop fuel rest' true in_argument)
                 | _ => emit [] (loop fuel rest false in_argument)
                 end
          else if u8_is_whitespace_or_newline c then
            (* no argument begins here *)
            let emit bytes r := obind r (fun '(n, out) => Done (n, bytes ++ out)) in
            if in_quotes then emit [c] (loop fuel rest in_quotes in_argument)
            else if in_argument then emit [0] (loop fuel rest false false)
            else emit [] (loop fuel rest false false)
          else emit [c] (loop fuel rest in_quotes true)
      end
  end.

(** windows.c 938-942: cut the buffer into [amount] zero-terminated strings; reading past
    its end is [Crash]. *)
Fixpoint read_cstring (buffer : list Z) : outcome (list Z * list Z) :=
  match buffer with
  | [] => Crash
  | 0 :: rest => Done ([], rest)
  | c :: rest => obind (read_cstring rest) (fun '(s, r) => Done (c :: s, r))
  end.
Fixpoint make_argv (amount : nat) (buffer : list Z) : outcome (list (list Z)) :=
  match amount with
  | O => Done []
  | S amount => obind (read_cstring buffer) (fun '(s, r) => obind (make_argv amount r) (fun a => Done (s :: a)))
  end.

(** windows.c 929-949 [windows_parse_command_line]; the buffer has [size + 1] bytes, writing more is [Crash]. *)
Definition windows_parse_command_line (line : list Z) : outcome (list (list Z)) :=
  obind (loop (S (length line)) line false false) (fun '(amount, out) =>
  if (length out <=? length line + 1)%nat then make_argv amount out else Crash).
