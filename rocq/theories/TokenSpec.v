(** What the tokens of a C file are (C11 6.4), for the punctuators without digraphs, and with $ and the bytes of
    UTF-8 in identifiers, ' in numbers, and numbers with 0b and 0o. *)
From Coq Require Import Ascii String.
From Verif Require Import Base TokenModel.
Import ListNotations.
Close Scope string_scope.

Definition codes (x : string) : list Z := map (fun a => Z.of_N (N_of_ascii a)) (list_ascii_of_string x).
Definition spellings : list (list Z * punct) := map (fun x => (codes (fst x), snd x)) [
  ("@", At_sign); ("`", Backtick); ("#", Hash); ("##", Hashhash); ("=", Equals); ("==", Logical_equals); ("(", Open_paren); (")", Closed_paren);
  ("{", Open_curly); ("}", Closed_curly); ("[", Open_index); ("]", Closed_index); (";", Semicolon); (":", Colon); (",", Comma); (".", Dot); ("...", Dotdotdot);
  (">", Bigger); (">=", Bigger_equals); (">>", Right_shift); (">>=", Right_shift_equals); ("<", Smaller); ("<=", Smaller_equals); ("<<", Left_shift); ("<<=", Left_shift_equals);
  ("~", Bitwise_not); ("!", Logical_not); ("!=", Logical_unequals); ("?", Question_mark); ("+", Plus); ("++", Increment); ("+=", Plus_equals);
  ("-", Minus); ("--", Decrement); ("->", Arrow); ("-=", Minus_equals); ("&", And); ("&&", Logical_and); ("&=", And_equals); ("|", Or); ("||", Logical_or); ("|=", Or_equals);
  ("^", Xor); ("^=", Xor_equals); ("*", Times); ("*=", Times_equals); ("/", Slash); ("/=", Div_equals); ("%", Mod); ("%=", Mod_equals)]%string.

Definition lf : Z := 10. Definition cr : Z := 13. Definition nul : Z := 0.
Definition starts (p s : list Z) : Prop := exists r, s = p ++ r.
Definition between (a b c : Z) : Prop := a <= c <= b.
Definition one_of (x : string) (c : Z) : Prop := In c (codes x).
Definition digit (c : Z) : Prop := between 48 57 c.
Definition letter (c : Z) : Prop := between 65 90 c \/ between 97 122 c.
Definition ident_char (c : Z) : Prop := digit c \/ letter c \/ one_of "_$" c \/ 128 <= c.
Definition hex_digit (c : Z) : Prop := digit c \/ between 65 70 c \/ between 97 102 c.
Definition blank (c : Z) : Prop := c = 9 \/ c = 11 \/ c = 12 \/ c = 32.
Definition control (c : Z) : Prop := (0 <= c < 32 \/ c = 127) /\ ~ blank c /\ c <> lf /\ c <> cr.
(** No byte of a class comes next. *)
Definition stops (p : Z -> Prop) (rest : list Z) : Prop := match rest with [] => True | c :: _ => ~ p c end.

(** Digits with separators. *)
Definition spaced (p : Z -> Prop) (c : Z) : Prop := p c \/ one_of "'" c.
(** A part that may be missing. *)
Definition optional (p : list Z -> Prop) (t : list Z) : Prop := t = [] \/ p t.
(** A fraction and an exponent, where [after] follows. *)
Definition fraction (d : Z -> Prop) (after t : list Z) : Prop := exists ds, t = codes "." ++ ds /\ Forall (spaced d) ds /\ stops (spaced d) after.
Definition sign (t : list Z) : Prop := t = codes "+" \/ t = codes "-".
Definition exponent (e : string) (after t : list Z) : Prop :=
  exists x s ds, t = x :: s ++ ds /\ one_of e x /\ optional sign s /\ (s = [] -> stops (one_of "+-") (ds ++ after)) /\ Forall (spaced digit) ds /\ stops (spaced digit) after.
Definition suffix (t : list Z) : Prop := Forall ident_char t.
(** The first byte is in a class. *)
Definition begins (p : Z -> Prop) (t : list Z) : Prop := match t with [] => False | c :: _ => p c end.

(** The texts of numbers, where [rest] follows. *)
Definition decimal_text (floating : bool) (ds text rest : list Z) : Prop :=
  exists fr ex su, text = ds ++ fr ++ ex ++ su /\ Forall (spaced digit) ds /\ stops (spaced digit) (fr ++ ex ++ su ++ rest)
    /\ optional (fraction digit (ex ++ su ++ rest)) fr /\ (fr = [] -> stops (one_of ".") (ex ++ su ++ rest))
    /\ optional (exponent "eE" (su ++ rest)) ex /\ (ex = [] -> stops (one_of "eE") (su ++ rest))
    /\ suffix su /\ stops ident_char rest /\ (floating = true <-> fr <> [] \/ ex <> []).
Definition based (x no : string) (d : Z -> Prop) (text rest : list Z) : Prop :=
  exists c ds su, text = codes "0" ++ c :: ds ++ su /\ one_of x c /\ Forall (spaced d) ds /\ stops (spaced d) (su ++ rest) /\ stops (one_of no) (su ++ rest) /\ suffix su /\ stops ident_char rest.
Definition hex_exponent (after t : list Z) : Prop := exists x s, t = x :: s /\ one_of "pP" x /\ optional sign s /\ (s = [] -> stops (one_of "+-") after).
Definition hex_float_text (text rest : list Z) : Prop :=
  exists c ds fr ex su, text = codes "0" ++ c :: ds ++ fr ++ ex ++ su /\ one_of "xX" c /\ Forall (spaced hex_digit) ds /\ stops (spaced hex_digit) (fr ++ ex ++ su ++ rest)
    /\ optional (fraction hex_digit (ex ++ su ++ rest)) fr /\ (fr = [] -> stops (one_of ".") (ex ++ su ++ rest))
    /\ optional (hex_exponent (su ++ rest)) ex /\ (ex = [] -> stops (one_of "pP") (su ++ rest)) /\ suffix su /\ stops ident_char rest /\ (fr <> [] \/ ex <> []).
Definition not_based (text : list Z) : Prop := forall c, ~ (one_of "xXbBoO" c /\ starts (codes "0" ++ [c]) text).

(** The inside of a literal: no quote, newline or zero without a backslash. *)
Inductive escaped (quote : Z) : list Z -> Prop :=
  | escaped_nil : escaped quote []
  | escaped_char c t : c <> 92 -> c <> quote -> c <> lf -> c <> nul -> escaped quote t -> escaped quote (c :: t)
  | escaped_pair c t : ~ (c = cr /\ begins (eq lf) t) -> escaped quote t -> escaped quote (92 :: c :: t)
  | escaped_crlf t : escaped quote t -> escaped quote (92 :: cr :: lf :: t).
Definition string_prefix (t : list Z) : Prop := In t (map codes [""; "L"; "U"; "u"; "u8"]%string).
Definition character_prefix (t : list Z) : Prop := In t (map codes [""; "L"; "U"; "u"]%string).
Definition quoted (prefix : list Z -> Prop) (quote : Z) (text : list Z) : Prop := exists p body, text = p ++ quote :: body ++ [quote] /\ prefix p /\ escaped quote body.

Definition block (text : list Z) : Prop :=
  exists body, text = codes "/*" ++ body ++ codes "*/" /\ ~ In nul body /\ forall a b, body ++ codes "*" <> a ++ codes "*/" ++ b.
Definition newline_text (t : list Z) : Prop := In t [[lf]; [cr]; [lf; cr]; [cr; lf]].

(** The tokens: [text] is the token, [rest] the file behind it. *)
Definition lexeme (t : type) (text rest : list Z) : Prop :=
  match t with
  | Invalid => False
  | Whitespace => (text <> [] /\ Forall blank text /\ stops blank rest)
      \/ (exists bs nl, text = 92 :: bs ++ nl /\ Forall blank bs /\ (newline_text nl \/ (nl = [] /\ stops blank rest /\ stops (fun c => c = lf \/ c = cr) rest)))
  | Newline => newline_text text
  | Comment => block text
      \/ (exists body, text = codes "//" ++ body /\ ~ In lf body /\ ~ In nul body /\ (rest = [] \/ begins (fun c => c = lf \/ c = nul) rest))
  | Character_literal => quoted character_prefix 39 text
  | String_literal => quoted string_prefix 34 text
  | Identifier => text <> [] /\ Forall ident_char text /\ ~ begins digit text /\ stops ident_char rest
      /\ (string_prefix text -> stops (one_of (String """" EmptyString)) rest) /\ (character_prefix text -> stops (one_of "'") rest)
  | Base10_literal => exists ds, decimal_text false ds text rest /\ begins digit ds /\ not_based text /\ ~ (begins (eq 48) ds /\ begins digit (tl ds))
  | Octal_literal => (exists ds, decimal_text false ds text rest /\ begins (eq 48) ds /\ begins digit (tl ds)) \/ based "oO" "" (between 48 55) text rest
  | Binary_literal => based "bB" "" (between 48 49) text rest
  | Hex_literal => based "xX" ".pP" hex_digit text rest
  | Float_literal => exists ds, decimal_text true ds text rest /\ not_based text /\ (begins digit ds \/ (ds = [] /\ begins digit (tl text)))
  | Float_hex_literal => hex_float_text text rest
  | Punct p => In (text, p) spellings /\ (forall sp p', In (sp, p') spellings -> starts sp (text ++ rest) -> (List.length sp <= List.length text)%nat)
      /\ ~ starts (codes "/*") (text ++ rest) /\ ~ starts (codes "//") (text ++ rest) /\ (text = codes "." -> stops digit rest)
  end.

(** What no token can start: [s] is the file from there on. *)
Definition malformed (t : type) (s : list Z) : Prop :=
  match t with
  | Invalid => begins control s
  | Comment => starts (codes "/*") s /\ forall text rest, s = text ++ rest -> ~ block text
  | Character_literal => (exists p, character_prefix p /\ starts (p ++ [39]) s) /\ forall text rest, s = text ++ rest -> ~ quoted character_prefix 39 text
  | String_literal => (exists p, string_prefix p /\ starts (p ++ [34]) s) /\ forall text rest, s = text ++ rest -> ~ quoted string_prefix 34 text
  | _ => False
  end.

(** The number of newlines in a text whose lines end with a line feed. *)
Definition newlines (t : list Z) : Z := Z.of_nat (count_occ Z.eq_dec t lf).
(** The bytes since the last line feed. *)
Fixpoint since_newline (t : list Z) : nat := match t with [] => O | _ :: t' => if in_dec Z.eq_dec lf t then since_newline t' else List.length t end.

(** Lines end with a line feed, perhaps after a carriage return. *)
Definition normal_lines (s : list Z) : Prop := forall a b, s = a ++ cr :: b -> begins (eq lf) b.
