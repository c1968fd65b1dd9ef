(** Model of numeric literals: digit parsing and suffixes (preprocess.c 909-1198)
    and the type a literal gets (parse.c 4475-4672).  Characters are byte values. *)
From Verif Require Import Base IntTypes IntModel.

Definition ch_quote : Z := 39.   (* '\'' *)
Definition ch_0 : Z := 48.
Definition ch_a : Z := 97.
Definition ch_A : Z := 65.

(** preprocess.c 912-935 [enum number_kind] (the integer part). *)
Inductive number_kind : Set :=
| NKinvalid | NKint | NKlong | NKlong_long
| NKunsigned | NKunsigned_long | NKunsigned_long_long
| NKs8 | NKs16 | NKs32 | NKs64 | NKu8 | NKu16 | NKu32 | NKu64.

(** std.c 1038 [string_match_case_insensitive] *)
Fixpoint string_match_case_insensitive (a b : list Z) : bool :=
  match a, b with
  | [], [] => true
  | x :: a, y :: b => (Z.lor x 32 =? Z.lor y 32) && string_match_case_insensitive a b
  | _, _ => false
  end.

(** Byte strings of the suffixes. *)
Definition str_ul := [117; 108].
Definition str_lu := [108; 117].
Definition str_ll := [108; 108].
Definition str_i8 := [105; 56].
Definition str_i16 := [105; 49; 54].
Definition str_i32 := [105; 51; 50].
Definition str_i64 := [105; 54; 52].
Definition str_ui8 := [117; 105; 56].
Definition str_ull := [117; 108; 108].
Definition str_llu := [108; 108; 117].
Definition str_ui16 := [117; 105; 49; 54].
Definition str_ui32 := [117; 105; 51; 50].
Definition str_ui64 := [117; 105; 54; 52].

(** preprocess.c 939-970 [parse_integer_suffix] *)
Definition parse_integer_suffix (suffix : list Z) : number_kind :=
  match length suffix with
  | 0%nat => NKint
  | 1%nat =>
      if Z.lor (hd 0 suffix) 32 =? 117 then NKunsigned
      else if Z.lor (hd 0 suffix) 32 =? 108 then NKlong
      else NKinvalid
  | 2%nat =>
      if string_match_case_insensitive suffix str_ul then NKunsigned_long
      else if string_match_case_insensitive suffix str_lu then NKunsigned_long
      else if string_match_case_insensitive suffix str_ll then NKlong_long
      else if string_match_case_insensitive suffix str_i8 then NKs8
      else NKinvalid
  | 3%nat =>
      if string_match_case_insensitive suffix str_i16 then NKs16
      else if string_match_case_insensitive suffix str_i32 then NKs32
      else if string_match_case_insensitive suffix str_i64 then NKs64
      else if string_match_case_insensitive suffix str_ui8 then NKu8
      else if string_match_case_insensitive suffix str_ull then NKunsigned_long_long
      else if string_match_case_insensitive suffix str_llu then NKunsigned_long_long
      else NKinvalid
  | 4%nat =>
      if string_match_case_insensitive suffix str_ui16 then NKu16
      else if string_match_case_insensitive suffix str_ui32 then NKu32
      else if string_match_case_insensitive suffix str_ui64 then NKu64
      else NKinvalid
  | _ => NKinvalid
  end.

(** Result of a digit loop: value, overflow flag, the rest of the token (the suffix). *)
Definition digits_result : Set := (Z * bool * list Z)%type.

(** preprocess.c 976-1011 [parse_base10_literal], the loop.  [u32 number] is the
    byte minus ['0'] as an unsigned number, so bytes below ['0'] are large. *)
Fixpoint base10_loop (data : list Z) (val : Z) (overflow : bool) : digits_result :=
  match data with
  | [] => (val, overflow, [])
  | c :: rest =>
      if c =? ch_quote then base10_loop rest val overflow
      else
        let number := wrapu 32 (c - ch_0) in
        if number >? 9 then (val, overflow, data)
        else
          let overflow := overflow || (wrapu 64 (Z.shiftr val 32 * 10) >? 2 ^ 32 - 1) in
          let val := wrapu 64 (val * 10) in
          let new_val := wrapu 64 (val + number) in
          base10_loop rest new_val (overflow || (new_val <? val))
  end.

(** preprocess.c 1046-1086 [parse_binary_literal], the loop after "0b". *)
Fixpoint binary_loop (data : list Z) (val : Z) (overflow : bool) : digits_result :=
  match data with
  | [] => (val, overflow, [])
  | c :: rest =>
      if c =? ch_quote then binary_loop rest val overflow
      else
        let bin := wrapu 32 (c - ch_0) in
        if bin >? 1 then (val, overflow, data)
        else binary_loop rest (Z.lor (wrapu 64 (Z.shiftl val 1)) bin)
                         (overflow || negb (Z.land val (2 ^ 63) =? 0))
  end.

(** preprocess.c 1088-1141 [parse_octal_literal], the loop; the digits 8 and 9 are
    errors (1117-1123): third component of the pair. *)
Fixpoint octal_loop (data : list Z) (val : Z) (overflow : bool) : digits_result * bool :=
  match data with
  | [] => ((val, overflow, []), false)
  | c :: rest =>
      if c =? ch_quote then octal_loop rest val overflow
      else
        let oct := wrapu 32 (c - ch_0) in
        if oct >? 7 then ((val, overflow, data), (oct =? 8) || (oct =? 9))
        else octal_loop rest (wrapu 64 (val * 8 + oct))
                        (overflow || negb (Z.land val (7 * 2 ^ 60) =? 0))
  end.

(** preprocess.c 1160-1173: value of a hex digit character, [None] ends the digits. *)
Definition hex_digit (c : Z) : option Z :=
  if (57 >=? c) && (c >=? 48) then Some (c - 48)
  else if (102 >=? c) && (c >=? 97) then Some (c - 97 + 10)
  else if (70 >=? c) && (c >=? 65) then Some (c - 65 + 10)
  else None.

(** preprocess.c 1143-1198 [parse_hex_literal], the loop after "0x". *)
Fixpoint hex_loop (data : list Z) (value : Z) (overflow : bool) : digits_result :=
  match data with
  | [] => (value, overflow, [])
  | c :: rest =>
      if c =? ch_quote then hex_loop rest value overflow
      else match hex_digit c with
           | None => (value, overflow, data)
           | Some number =>
               let overflow := overflow || negb (Z.land value (15 * 2 ^ 60) =? 0) in
               let value := wrapu 64 (Z.shiftl value 4) in
               let new_val := wrapu 64 (value + number) in
               hex_loop rest new_val (overflow || (new_val <? value))
           end
  end.

(** parse.c 4475-4483 [explicit_number_kind_case]: the literal is truncated to the
    named type, with a warning when it does not fit. *)
Definition explicit_kind (k : number_kind) : option ity :=
  match k with
  | NKs8 => Some S8 | NKs16 => Some S16 | NKs32 => Some S32 | NKs64 => Some S64
  | NKu8 => Some U8 | NKu16 => Some U16 | NKu32 => Some U32 | NKu64 => Some U64
  | _ => None
  end.

Definition max_s32 : Z := 2147483647.
Definition max_u32 : Z := 4294967295.
Definition max_s64 : Z := 9223372036854775807.

(** A literal of type [t] written through the member of [t]; [garbage] is what the
    uninitialised union held before. *)
Definition write_lit (t : ity) (garbage val : Z) : lit := mklit t (wr (bits t) garbage val).

(** parse.c 4485-4572, decimal literals: type and the "interpreted as unsigned" warning. *)
Definition base10_type (k : number_kind) (val : Z) : option (ity * bool) :=
  match explicit_kind k with
  | Some t => Some (t, false)
  | None =>
      let long_long := if val <=? max_s64 then (S64, false) else (U64, true) in
      match k with
      | NKlong | NKint => if val <=? max_s32 then Some (S32, false) else Some long_long
      | NKlong_long => Some long_long
      | NKunsigned_long | NKunsigned => if val <=? max_u32 then Some (U32, false) else Some (U64, false)
      | NKunsigned_long_long => Some (U64, false)
      | _ => None
      end
  end.

(** parse.c 4574-4672, octal, binary and hexadecimal literals. *)
Definition other_base_type (k : number_kind) (val : Z) : option ity :=
  match explicit_kind k with
  | Some t => Some t
  | None =>
      match k with
      | NKlong | NKint =>
          if val <=? max_s32 then Some S32
          else if val <=? max_u32 then Some U32
          else if val <=? max_s64 then Some S64
          else Some U64
      | NKlong_long => if val <=? max_s64 then Some S64 else Some U64
      | NKunsigned_long | NKunsigned => if val <=? max_u32 then Some U32 else Some U64
      | NKunsigned_long_long => Some U64
      | _ => None
      end
  end.

(** preprocess.c 976-1011, 1046-1086, 1088-1141, 1143-1198: the whole token.  The
    results are (value, kind, overflow warning).  The asserted prefixes are given
    separately: [text] starts after "0b" / "0" or "0o" / "0x". *)
Definition parse_base10_literal (text : list Z) : Z * number_kind * bool :=
  let '(v, o, rest) := base10_loop text 0 false in (v, parse_integer_suffix rest, o).
Definition parse_binary_literal (text : list Z) : Z * number_kind * bool :=
  let '(v, o, rest) := binary_loop text 0 false in (v, parse_integer_suffix rest, o).
Definition parse_octal_literal (text : list Z) : Z * number_kind * bool * bool :=
  let '((v, o, rest), bad) := octal_loop text 0 false in (v, parse_integer_suffix rest, o, bad).
Definition parse_hex_literal (text : list Z) : Z * number_kind * bool :=
  let '(v, o, rest) := hex_loop text 0 false in (v, parse_integer_suffix rest, o).
