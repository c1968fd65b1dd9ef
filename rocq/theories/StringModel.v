(** String and character literals: from the bytes between the quotes to the emitted code units
    (preprocess.c 434-880).  Bytes are numbers below 256. *)
From Verif Require Import Base.

Inductive kind : Set := Utf8 | Utf16 | Utf32.   (* enum string_kind *)

(** preprocess.c 443-453. *)
Definition hex_number (c : Z) : option Z :=
  if (48 <=? c) && (c <=? 57) then Some (c - 48)
  else if (97 <=? c) && (c <=? 102) then Some (c - 97 + 10)
  else if (65 <=? c) && (c <=? 70) then Some (c - 65 + 10)
  else None.

(** parse_hex_string_to_u64 (preprocess.c 435-465): the value, was there an overflow, the rest. *)
Fixpoint parse_hex (value : Z) (overflow : bool) (s : list Z) : Z * bool * list Z :=
  match s with
  | [] => (value, overflow, [])
  | c :: s' =>
      match hex_number c with
      | None => (value, overflow, s)
      | Some number =>
          let overflow1 := overflow || (2 ^ 60 <=? value) in
          let shifted := wrapu 64 (value * 16) in
          let new_val := wrapu 64 (shifted + number) in
          parse_hex new_val (overflow1 || (new_val <? shifted)) s'
      end
  end.

(** The one-letter escapes (preprocess.c 480-491). *)
Definition simple_escape (c : Z) : option Z :=
  if c =? 39 then Some 39 else if c =? 34 then Some 34 else if c =? 63 then Some 63 else if c =? 92 then Some 92
  else if c =? 97 then Some 7 else if c =? 98 then Some 8 else if c =? 102 then Some 12 else if c =? 110 then Some 10
  else if c =? 114 then Some 13 else if c =? 116 then Some 9 else if c =? 118 then Some 11 else if c =? 101 then Some 27
  else None.

Definition is_octal (c : Z) : bool := (48 <=? c) && (c <=? 55).
(** preprocess.c 499-507. *)
Fixpoint octal (n : nat) (value : Z) (s : list Z) : Z * list Z :=
  match n, s with
  | S n, c :: s' => if is_octal c then octal n (8 * value + (c - 48)) s' else (value, s)
  | _, _ => (value, s)
  end.

(** eat_escape_from_string_and_return_codepoint (preprocess.c 468-568): the value, the rest, was there an
    error.  The backslash is already gone. *)
Definition escape (maximal : Z) (s : list Z) : outcome (Z * list Z * bool) :=
  match s with
  | [] => Crash   (* the assertion in line 470 *)
  | c :: s' =>
      match simple_escape c with
      | Some v => Done (v, s', false)
      | None =>
          if is_octal c then let '(v, r) := octal 2 (c - 48) s' in Done (v, r, maximal <? v)
          else if c =? 120 then
            match s' with
            | d :: _ => match hex_number d with
                        | Some _ => let '(v, overflow, r) := parse_hex 0 false s' in Done (wrapu 32 v, r, overflow || (maximal <? v))
                        | None => Done (0, s', true)
                        end
            | [] => Done (0, s', true)
            end
          else if (c =? 117) || (c =? 85) then
            let size := if c =? 117 then 4%nat else 8%nat in
            if (length s' <? size)%nat then Done (0, [], true)
            else let '(v, overflow, r) := parse_hex 0 false (firstn size s') in
                 if overflow then Crash else Done (wrapu 32 v, skipn size s', negb (match r with [] => true | _ => false end))
          else Done (0, s', true)
      end
  end.

(** The leading ones after the first (preprocess.c 579-583): bits n-1, n-2, ... *)
Fixpoint leading (n : nat) (c : Z) : nat := match n with O => O | S m => if Z.testbit c (Z.of_nat m) then S (leading m c) else O end.

(** preprocess.c 604-613. *)
Fixpoint continuation (n : nat) (shift codepoint : Z) (s : list Z) : option Z :=
  match n with
  | O => Some codepoint
  | S n => match s with
           | c :: s' => if Z.land c 192 =? 128 then continuation n (Z.shiftr shift 6) (Z.lor codepoint (wrapu 32 (shift * Z.land c 63))) s' else None
           | [] => None
           end
  end.

(** utf8_read_codepoint (preprocess.c 570-617): the code point, the rest, was there an error. *)
Definition read_codepoint (c : Z) (s : list Z) : outcome (Z * list Z * bool) :=
  if negb (Z.land c 128 =? 128) then Done (c, s, false)
  else
    let size := leading 7 c in
    if (length s <? size)%nat then Done (0, s, true)
    else if (6 <=? size)%nat then Crash   (* a shift by 36 or more in line 600 *)
    else
      let mask := 2 ^ (8 - (Z.of_nat size + 1)) - 1 in
      let shift := 2 ^ (6 * Z.of_nat size) in
      match continuation size (Z.shiftr shift 6) (wrapu 32 (shift * Z.land c mask)) s with
      | Some v => Done (v, skipn size s, false)
      | None => Done (0, s, true)
      end.

(** The UTF-8 encoder for \u and \U (preprocess.c 722-763). *)
Fixpoint trailing (n : nat) (codepoint : Z) : list Z :=
  match n with O => [] | S m => Z.lor 128 (Z.land (Z.shiftr codepoint (6 * Z.of_nat m)) 63) :: trailing m codepoint end.
Definition encode8 (codepoint : Z) : list Z :=
  if codepoint <? 128 then [codepoint]
  else
    let bit_size := Z.log2 codepoint + 1 in   (* 32 - count_leading_zeros32 *)
    let bytes0 := bit_size / 6 in
    let bits := bit_size mod 6 in
    let bytes := if 8 <? bytes0 + 1 + 1 + bits then bytes0 + 1 else bytes0 in
    let size_mask := wrapu 8 (Z.shiftl (Z.shiftl 1 (bytes + 1) - 1) (8 - (bytes + 1))) in
    wrapu 8 (Z.lor size_mask (Z.shiftr codepoint (6 * bytes))) :: trailing (Z.to_nat bytes) codepoint.

(** UTF-16 (preprocess.c 784-798, 820-834): the units, was there an error. *)
Definition encode16 (codepoint : Z) : outcome (list Z * bool) :=
  let error := (55296 <=? codepoint) && (codepoint <? 57344) in
  if codepoint <? 65536 then Done ([codepoint], error)
  else let c := codepoint - 65536 in
       if c <? 1048576 then Done ([Z.lor 55296 (Z.land (Z.shiftr c 10) 1023); Z.lor 56576 (Z.land c 1023)], error) else Crash.

Definition maximal (k : kind) : Z := match k with Utf8 => 255 | Utf16 => 65535 | Utf32 => 4294967295 end.

(** string_eat_newline (std.c 1088-1104).  Simplified: a carriage return at the very end does not look at
    the byte behind the string (the closing quote). *)
Definition eat_newline (s : list Z) : option (list Z) :=
  match s with
  | 10 :: s' => Some s'
  | 13 :: 10 :: s' => Some s'
  | 13 :: s' => Some s'
  | _ => None
  end.

(** What is written for an escape: the escapes \u and \U are encoded, the others are single units
    (preprocess.c 717-767, 811-838, 863-864). *)
Definition escaped_units (k : kind) (c codepoint : Z) : outcome (list Z * bool) :=
  let needs_encoding := Z.lor c 32 =? 117 in
  match k with
  | Utf8 => Done (if needs_encoding then encode8 codepoint else [wrapu 8 codepoint], false)
  | Utf16 => if needs_encoding then encode16 codepoint else Done ([wrapu 16 codepoint], false)
  | Utf32 => Done ([codepoint], false)
  end.
(** What is written for other characters: for UTF-8 the byte, else the code point is read
    (preprocess.c 697-706, 781-800, 852-856): the units, the rest, was there an error. *)
Definition plain_units (k : kind) (c : Z) (s : list Z) : outcome (list Z * list Z * bool) :=
  match k with
  | Utf8 => Done ([c], s, false)
  | Utf16 => obind (read_codepoint c s) (fun '(v, r, e) => obind (encode16 v) (fun '(us, e') => Done (us, r, e || e')))
  | Utf32 => obind (read_codepoint c s) (fun '(v, r, e) => Done ([v], r, e))
  end.

(** handle_escaping_out (preprocess.c 685): the buffer has [cap] units. *)
Definition put (cap : nat) (buf us : list Z) : outcome (list Z) := if (length buf + length us <=? cap)%nat then Done (buf ++ us) else Crash.

(** The loop over one string. *)
Fixpoint convert_one (fuel : nat) (k : kind) (cap : nat) (buf : list Z) (error : bool) (s : list Z) : outcome (list Z * bool) :=
  match fuel with
  | O => Crash
  | S fuel =>
      match s with
      | [] => Done (buf, error)
      | c :: s1 =>
          if c =? 92 then
            match eat_newline s1 with
            | Some s2 => convert_one fuel k cap buf error s2
            | None =>
                match s1 with
                | [] => Crash
                | d :: _ =>
                    obind (escape (maximal k) s1) (fun '(v, s2, e) =>
                    obind (escaped_units k d v) (fun '(us, e') =>
                    obind (put cap buf us) (fun buf' => convert_one fuel k cap buf' (error || e || e') s2)))
                end
            end
          else
            obind (plain_units k c s1) (fun '(us, s2, e) =>
            obind (put cap buf us) (fun buf' => convert_one fuel k cap buf' (error || e) s2))
      end
  end.
Fixpoint convert_all (k : kind) (cap : nat) (buf : list Z) (error : bool) (strings : list (list Z)) : outcome (list Z * bool) :=
  match strings with
  | [] => Done (buf, error)
  | s :: strings => obind (convert_one (S (length s)) k cap buf error s) (fun '(buf', e) => convert_all k cap buf' e strings)
  end.
(** escape_and_convert_string_array (preprocess.c 650-880), with a buffer of [cap] units. *)
Definition convert_with (cap : nat) (k : kind) (strings : list (list Z)) : outcome (list Z) :=
  obind (convert_all k cap [] false strings) (fun '(us, e) => if e : bool then Reported else Done us).
(** As it is called (preprocess.c 902, parse.c 4699, 4732, 4738): the buffer has one unit per byte of source. *)
Definition convert (k : kind) (strings : list (list Z)) : outcome (list Z) := convert_with (length (concat strings)) k strings.
