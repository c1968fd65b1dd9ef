(** The tokenizer (preprocess.c 1202-1810): from the bytes of a file to raw tokens. *)
From Verif Require Import Base.

Inductive punct : Set :=
  | At_sign | Backtick | Hash | Hashhash | Equals | Logical_equals | Open_paren | Closed_paren | Open_curly | Closed_curly | Open_index | Closed_index
  | Semicolon | Colon | Comma | Dot | Dotdotdot | Bigger | Bigger_equals | Right_shift | Right_shift_equals | Smaller | Smaller_equals | Left_shift | Left_shift_equals
  | Bitwise_not | Logical_not | Logical_unequals | Question_mark | Plus | Increment | Plus_equals | Minus | Decrement | Arrow | Minus_equals
  | And | Logical_and | And_equals | Or | Logical_or | Or_equals | Xor | Xor_equals | Times | Times_equals | Slash | Div_equals | Mod | Mod_equals.
(** enum token_type, as far as the tokenizer assigns it. *)
Inductive type : Set :=
  | Invalid | Whitespace | Newline | Comment | Character_literal | String_literal | Identifier
  | Float_hex_literal | Hex_literal | Binary_literal | Octal_literal | Base10_literal | Float_literal
  | Punct (p : punct).

(** at[n]: behind the file there are zeros (load_or_get_source_file, preprocess.c 2656-2690). *)
Definition peek (s : list Z) (n : nat) : Z := nth n s 0.

(** std.c 959-977, preprocess.c 387-420. *)
Definition is_whitespace (c : Z) : bool := (c =? 11) || (c =? 9) || (c =? 12) || (c =? 32).
Definition is_number (c : Z) : bool := (c <=? 57) && (48 <=? c).
Definition is_hex_number (c : Z) : bool := is_number c || ((Z.lor c 32 <=? 102) && (97 <=? Z.lor c 32)).
Definition is_ident (c : Z) : bool :=
  (c =? 36) || (c =? 95) || ((48 <=? c) && (c <=? 57)) || ((97 <=? c) && (c <=? 122)) || ((65 <=? c) && (c <=? 90)) || (128 <=? c).

(** while(p(at[n])) n++, where p is false for the zero behind the file. *)
Fixpoint span (p : Z -> bool) (s : list Z) : nat := match s with c :: s => if p c then S (span p s) else O | [] => O end.
Definition while_ (p : Z -> bool) (s : list Z) (n : nat) : nat := (n + span p (skipn n s))%nat.

(** The body of a string or character literal after the opening quote (preprocess.c 1558-1573, 1601-1618): the bytes up to and with the closing
    quote, the newlines behind backslashes, was the end missing.  Structural instead of by a pointer. *)
Fixpoint literal (quote : Z) (s : list Z) : nat * Z * bool :=
  match s with
  | [] => (0%nat, 0, true)   (* the zero behind the file *)
  | c :: s1 =>
      if c =? 92 then
        match s1 with
        | [] => (2%nat, 0, true)
        | d :: s2 =>
            let two := let '(n, l, e) := literal quote s2 in (S (S n), l + (if d =? 10 then 1 else 0), e) in
            match s2 with
            | [] => two
            | e :: s3 => if (d =? 13) && (e =? 10) then let '(n, l, e) := literal quote s3 in (S (S (S n)), l + 1, e) else two
            end
        end
      else if c =? quote then (1%nat, 0, false)
      else if (c =? 0) || (c =? 10) then (0%nat, 0, true)
      else let '(n, l, e) := literal quote s1 in (S n, l, e)
  end.

(** The body of a block comment (preprocess.c 1507-1518): the bytes before the end, the newlines, the bytes since the last newline if there is one,
    was the end missing. *)
Fixpoint comment (s : list Z) : nat * Z * option nat * bool :=
  match s with
  | [] => (0%nat, 0, None, true)
  | c :: s1 =>
      if c =? 0 then (0%nat, 0, None, true)
      else if (peek s 1 =? 47) && (c =? 42) then (0%nat, 0, None, false)
      else
        let '(n, l, since, e) := comment s1 in
        if c =? 10 then (S n, l + 1, match since with Some k => Some k | None => Some n end, e) else (S n, l, since, e)
  end.

(** Digits, a fraction and an exponent (preprocess.c 1712-1735, 1744-1769): the size and the type. *)
Definition is_digit_or_quote (c : Z) : bool := is_number c || (c =? 39).
Definition decimal (t : type) (s : list Z) (n0 : nat) : nat * type :=
  let n1 := while_ is_digit_or_quote s n0 in
  let '(n2, t2) := if peek s n1 =? 46 then (while_ is_digit_or_quote s (S n1), Float_literal) else (n1, t) in
  let '(n3, t3) :=
    if Z.lor (peek s n2) 32 =? 101 then
      let n := S n2 in
      let n := if (peek s n =? 45) || (peek s n =? 43) then S n else n in
      (while_ is_digit_or_quote s n, Float_literal)
    else (n2, t2) in
  (while_ is_ident s n3, t3).

(** Literals that start with 0 (preprocess.c 1651-1741). *)
Definition is_hex_or_quote (c : Z) : bool := is_hex_number c || (c =? 39).
Definition exponent_sign (s : list Z) (n : nat) : nat := if (peek s n =? 45) || (peek s n =? 43) then S n else n.
Definition zero_literal (s : list Z) : nat * type :=
  if Z.lor (peek s 1) 32 =? 120 then
    let n := while_ is_hex_or_quote s 2 in
    if peek s n =? 46 then
      let n := while_ is_hex_or_quote s (S n) in
      let n := if Z.lor (peek s n) 32 =? 112 then exponent_sign s (S n) else n in
      (while_ is_ident s n, Float_hex_literal)
    else if Z.lor (peek s n) 32 =? 112 then (while_ is_ident s (exponent_sign s (S n)), Float_hex_literal)
    else (while_ is_ident s n, Hex_literal)
  else if Z.lor (peek s 1) 32 =? 98 then
    (while_ is_ident s (while_ (fun c => (c =? 48) || (c =? 49) || (c =? 39)) s 2), Binary_literal)
  else if Z.lor (peek s 1) 32 =? 111 then
    (while_ is_ident s (while_ (fun c => ((48 <=? c) && (c <=? 55)) || (c =? 39)) s 2), Octal_literal)
  else if (48 <=? peek s 1) && (peek s 1 <=? 57) then decimal Octal_literal s 1
  else decimal Base10_literal s 0.

(** What one iteration of the loop leaves: the size and type of the token, the position after it, was an error reported. *)
Record scanned : Set := { size : nat; kind : type; line_after : Z; column_after : Z; error : bool }.

Section Scan.
Variables (line column : Z) (s : list Z).
(** next_token__internal *)
Definition token (t : type) (n : nat) : scanned := {| size := n; kind := t; line_after := line; column_after := column + Z.of_nat n; error := false |}.
Definition punctuator (p : punct) (n : nat) : scanned := token (Punct p) n.
Definition newline (n : nat) : scanned := {| size := n; kind := Newline; line_after := line + 1; column_after := 1; error := false |}.

(** preprocess.c 1311-1334. *)
Definition backslash : scanned :=
  let n := while_ is_whitespace s 1 in
  let splice n := {| size := n; kind := Whitespace; line_after := line + 1; column_after := 1; error := false |} in
  if peek s n =? 10 then splice (if peek s (S n) =? 13 then S (S n) else S n)
  else if peek s n =? 13 then splice (if peek s (S n) =? 10 then S (S n) else S n)
  else token Whitespace n.

(** preprocess.c 1502-1528. *)
Definition block_comment : scanned :=
  let '(n, l, since, e) := comment (skipn 2 s) in
  {| size := (2 + n + 2)%nat; kind := Comment; line_after := line + l;
     column_after := match since with Some k => Z.of_nat k + 2 + 1 | None => Z.of_nat n + 2 + column end; error := e |}.
Definition line_comment : scanned := token Comment (while_ (fun c => negb (c =? 0) && negb (c =? 10)) s 2).

(** preprocess.c 1548-1588, 1590-1629; [prefix] bytes stand before the quote. *)
Definition character_token (prefix : nat) : scanned :=
  let '(n, _, e) := literal 39 (skipn (S prefix) s) in
  {| size := (S prefix + n)%nat; kind := Character_literal; line_after := line; column_after := column + Z.of_nat (S prefix + n); error := e |}.
Definition string_token (prefix : nat) : scanned :=
  let '(n, l, e) := literal 34 (skipn (S prefix) s) in
  {| size := (S prefix + n)%nat; kind := String_literal; line_after := line + l; column_after := column + Z.of_nat (S prefix + n); error := e |}.
Definition identifier : scanned := token Identifier (while_ is_ident s 1).
Definition number (r : nat * type) : scanned := token (snd r) (fst r).

(** The switch (preprocess.c 1285-1790). *)
Definition scan : scanned :=
  let c := peek s 0 in let d := peek s 1 in let e := peek s 2 in
  if ((0 <=? c) && (c <=? 8)) || ((14 <=? c) && (c <=? 31)) || (c =? 127) then {| size := 1; kind := Invalid; line_after := line; column_after := column + 1; error := true |}
  else if c =? 92 then backslash
  else if is_whitespace c then token Whitespace (while_ is_whitespace s 1)
  else if c =? 10 then newline (if d =? 13 then 2 else 1)
  else if c =? 13 then newline (if d =? 10 then 2 else 1)
  else if c =? 64 then punctuator At_sign 1
  else if c =? 96 then punctuator Backtick 1
  else if c =? 35 then if d =? 35 then punctuator Hashhash 2 else punctuator Hash 1
  else if c =? 61 then if d =? 61 then punctuator Logical_equals 2 else punctuator Equals 1
  else if c =? 40 then punctuator Open_paren 1
  else if c =? 41 then punctuator Closed_paren 1
  else if c =? 123 then punctuator Open_curly 1
  else if c =? 125 then punctuator Closed_curly 1
  else if c =? 91 then punctuator Open_index 1
  else if c =? 93 then punctuator Closed_index 1
  else if c =? 59 then punctuator Semicolon 1
  else if c =? 58 then punctuator Colon 1
  else if c =? 44 then punctuator Comma 1
  else if c =? 46 then if (d =? 46) && (e =? 46) then punctuator Dotdotdot 3 else if is_number d then number (decimal Base10_literal s 0) else punctuator Dot 1
  else if c =? 62 then
    if d =? 62 then if e =? 61 then punctuator Right_shift_equals 3 else punctuator Right_shift 2
    else if d =? 61 then punctuator Bigger_equals 2 else punctuator Bigger 1
  else if c =? 60 then
    if d =? 60 then if e =? 61 then punctuator Left_shift_equals 3 else punctuator Left_shift 2
    else if d =? 61 then punctuator Smaller_equals 2 else punctuator Smaller 1
  else if c =? 126 then punctuator Bitwise_not 1
  else if c =? 33 then if d =? 61 then punctuator Logical_unequals 2 else punctuator Logical_not 1
  else if c =? 63 then punctuator Question_mark 1
  else if c =? 43 then if d =? 43 then punctuator Increment 2 else if d =? 61 then punctuator Plus_equals 2 else punctuator Plus 1
  else if c =? 45 then if d =? 45 then punctuator Decrement 2 else if d =? 62 then punctuator Arrow 2 else if d =? 61 then punctuator Minus_equals 2 else punctuator Minus 1
  else if c =? 38 then if d =? 38 then punctuator Logical_and 2 else if d =? 61 then punctuator And_equals 2 else punctuator And 1
  else if c =? 124 then if d =? 124 then punctuator Logical_or 2 else if d =? 61 then punctuator Or_equals 2 else punctuator Or 1
  else if c =? 94 then if d =? 61 then punctuator Xor_equals 2 else punctuator Xor 1
  else if c =? 42 then if d =? 61 then punctuator Times_equals 2 else punctuator Times 1
  else if c =? 47 then
    if d =? 42 then block_comment else if d =? 47 then line_comment else if d =? 61 then punctuator Div_equals 2 else punctuator Slash 1
  else if c =? 37 then if d =? 61 then punctuator Mod_equals 2 else punctuator Mod 1
  else if c =? 39 then character_token 0
  else if c =? 34 then string_token 0
  else if (c =? 76) || (c =? 85) then if d =? 34 then string_token 1 else if d =? 39 then character_token 1 else identifier
  else if c =? 117 then if d =? 34 then string_token 1 else if d =? 39 then character_token 1 else if (d =? 56) && (e =? 34) then string_token 2 else identifier
  else if c =? 48 then number (zero_literal s)
  else if (49 <=? c) && (c <=? 57) then number (decimal Base10_literal s 0)
  else identifier.
End Scan.

(** struct token: [tk_size] is cur->size; [tk_text] the bytes of the file it covers. *)
Record tok : Set := { tk_type : type; tk_line : Z; tk_column : Z; tk_size : nat; tk_text : list Z }.

(** The loop (preprocess.c 1244-1796): the tokens and whether an error was reported. *)
Fixpoint tokens (fuel : nat) (line column : Z) (s : list Z) : outcome (list tok * bool) :=
  match fuel with
  | O => Crash
  | S fuel =>
      match s with
      | [] => Done ([], false)
      | _ :: _ =>
          let r := scan line column s in
          let t := {| tk_type := kind r; tk_line := line; tk_column := column; tk_size := size r; tk_text := firstn (size r) s |} in
          obind (tokens fuel (line_after r) (column_after r) (skipn (size r) s)) (fun '(ts, e) => Done (t :: ts, error r || e))
      end
  end.
Definition tokenize (s : list Z) : outcome (list tok * bool) := tokens (S (length s)) 1 1 s.
