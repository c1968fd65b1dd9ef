(** Model of the reader for library archives, ar.c, with the string helpers of std.c it uses.
    A file is its list of bytes; every read of it is checked, a read outside is [Crash].  Pointers
    into the file are offsets.  Printing is dropped; the return values '1 with a message' is [Reported]. *)
From Verif Require Import Base.

Definition zlen {A} (l : list A) : Z := Z.of_nat (length l).

(** A checked read of [n] bytes. *)
Definition read (file : list Z) (off n : Z) : outcome (list Z) :=
  if (0 <=? off) && (0 <=? n) && (off + n <=? zlen file)
  then Done (firstn (Z.to_nat n) (skipn (Z.to_nat off) file)) else Crash.

Fixpoint little_endian (bytes : list Z) : Z :=
  match bytes with [] => 0 | b :: rest => b + 256 * little_endian rest end.
Definition read_int (file : list Z) (off n : Z) : outcome Z :=
  obind (read file off n) (fun b => Done (little_endian b)).

(** std.c 1187-1199 [string_strip_whitespace] *)
Fixpoint strip_front (s : list Z) : list Z :=
  match s with 32 :: rest => strip_front rest | _ => s end.
Definition string_strip_whitespace (s : list Z) : list Z := strip_front (rev (strip_front (rev s))).

(** std.c 983-988 [u8_parse_hex_to_binary] *)
Definition u8_parse_hex_to_binary (hex : Z) : Z :=
  if (48 <=? hex) && (hex <=? 57) then hex - 48
  else if (97 <=? hex) && (hex <=? 102) then hex - 97 + 10
  else if (65 <=? hex) && (hex <=? 70) then hex - 65 + 10 else 0.

(** std.c 1667-1686 [string_to_u64]; [None]: '*_out_success' is cleared.  Note the '> 10' for the digits,
    and that the '0x' is part of the loop. *)
Fixpoint hex_digits (s : list Z) (ret : Z) : Z :=
  match s with [] => ret | c :: rest => hex_digits rest (wrapu 64 (wrapu 64 (ret * 16) + u8_parse_hex_to_binary c)) end.
Fixpoint decimal_digits (s : list Z) (ret : Z) : option Z :=
  match s with
  | [] => Some ret
  | c :: rest => let val := wrapu 64 (c - 48) in
                 if val >? 10 then None else decimal_digits rest (wrapu 64 (ret * 10 + val))
  end.
Definition string_to_u64 (s : list Z) : option Z :=
  if (2 <? zlen s) && (nth 0 s 0 =? 48) && (Z.lor (nth 1 s 0) 32 =? 120)
  then Some (hex_digits s 0) else decimal_digits s 0.

(** std.c 1128-1138 [string_compare_lexically] *)
Fixpoint string_compare_lexically (a b : list Z) : comparison :=
  match a, b with
  | [], [] => Eq
  | [], _ => Lt
  | _, [] => Gt
  | x :: a, y :: b => if x <? y then Lt else if x >? y then Gt else string_compare_lexically a b
  end.

(** std.c 944-949 [cstring_length]: the count is a u32. *)
Fixpoint zero_terminated (l : list Z) : outcome (list Z) :=
  match l with
  | [] => Crash
  | 0 :: _ => Done []
  | c :: rest => obind (zero_terminated rest) (fun s => Done (c :: s))
  end.
Definition cstring_at (file : list Z) (off : Z) : outcome (list Z) :=
  if off <? 0 then Crash else
  obind (zero_terminated (skipn (Z.to_nat off) file)) (fun s => Done (firstn (Z.to_nat (wrapu 32 (zlen s))) s)).

(** main.c 294-312 [struct library_node] *)
Record library_node := { lib_file : list Z; amount_of_members : Z; member_offsets : Z;
  amount_of_symbols : Z; symbol_member_indices : Z; import_symbol_string_table : list (list Z) }.

(** ar.c 86-131: the file sections in front; the offset and size of the second linker member. *)
Fixpoint sections (fuel : nat) (file : list Z) (index : Z) (at_ : Z) (index_base : option (Z * Z)) : outcome (option (Z * Z)) :=
  match fuel with
  | O => Crash
  | S fuel =>
      if at_ + 60 <=? zlen file then
        obind (read file at_ 16) (fun ident_bytes =>
        obind (read file (at_ + 48) 10) (fun size_bytes =>
        let file_identifier := string_strip_whitespace ident_bytes in
        match string_to_u64 (string_strip_whitespace size_bytes) with
        | None => Reported
        | Some file_size =>
            if (file_size >? zlen file) || (at_ + 60 + file_size >? zlen file) then Reported else
            let next := at_ + 60 + file_size + Z.land file_size 1 in
            if (index =? 0) && (if list_eq_dec Z.eq_dec file_identifier [47] then true else false)
            then sections fuel file (index + 1) next index_base
            else if (index =? 1) && (if list_eq_dec Z.eq_dec file_identifier [47] then true else false)
            then sections fuel file (index + 1) next (Some (at_ + 60, file_size))
            else Done index_base (* the long names, 124-128, are not used *)
        end))
      else Done index_base
  end.

(** ar.c 193-200: the zero-terminated strings between [it] and [end_]. *)
Fixpoint string_list (fuel : nat) (file : list Z) (it end_ : Z) : outcome (list (list Z)) :=
  match fuel with
  | O => Crash
  | S fuel =>
      if it <? end_ then
        obind (cstring_at file it) (fun s =>
        obind (string_list fuel file (it + zlen s + 1) end_) (fun rest => Done (s :: rest)))
      else Done []
  end.

(** ar.c 21-228 [ar_parse_file], after loading the file.  [Done None]: nothing to add to the libraries. *)
Definition ar_parse_file (file : list Z) : outcome (option library_node) :=
  if zlen file <? 8 then Reported else
  obind (read file 0 8) (fun signature =>
  if list_eq_dec Z.eq_dec signature [33; 60; 97; 114; 99; 104; 62; 10] then
  if zlen file =? 8 then Done None else
  obind (sections 3 file 0 8 None) (fun index_base =>
  match index_base with
  | None => Reported
  | Some (base, size) =>
      if size <? 4 then Reported else
      obind (read_int file (base + size - 1) 1) (fun last =>
      if negb (last =? 0) then Reported else
      let end_ := base + size in
      obind (read_int file base 4) (fun members =>
      if base + 4 + 4 * members + 4 >? end_ then Reported else
      let offsets := base + 4 in
      obind (read_int file (offsets + 4 * members) 4) (fun symbols =>
      if symbols =? 0 then Done None else
      let indices := offsets + 4 * members + 4 in
      obind (read_int file (end_ - 1) 1) (fun last =>
      if (indices + 2 * symbols >=? end_) || negb (last =? 0) then Reported else
      obind (string_list (S (Z.to_nat size)) file (indices + 2 * symbols) end_) (fun strings =>
      if negb (zlen strings =? symbols) then Reported else
      if zlen strings =? 0 then Done None else
      Done (Some {| lib_file := file; amount_of_members := members; member_offsets := offsets;
                    amount_of_symbols := symbols; symbol_member_indices := indices;
                    import_symbol_string_table := strings |}))))))
  end)
  else Reported).

(** ar.c 285-298: the binary search; -1 if there is none. *)
Fixpoint binary_search (fuel : nat) (strings : list (list Z)) (identifier : list Z) (min max : Z) : outcome Z :=
  match fuel with
  | O => Crash
  | S fuel =>
      if max - min >=? 0 then
        let at_ := min + Z.quot (max - min) 2 in
        if at_ <? 0 then Crash else
        match nth_error strings (Z.to_nat at_) with
        | None => Crash
        | Some s =>
            match string_compare_lexically identifier s with
            | Eq => Done at_
            | Lt => binary_search fuel strings identifier min (at_ - 1)
            | Gt => binary_search fuel strings identifier (at_ + 1) max
            end
        end
      else Done (-1)
  end.

(** ar.c 231-262 [struct ar_symbol_lookup]: the offset of the header found and the size of the file. *)
Inductive ar_symbol_lookup :=
| lookup_failed
| import_header (off size : Z)
| object_file (off size : Z).

(** ar.c 263-399 [ar_lookup_symbol]; a 'parse error' warning is [lookup_failed] as well. *)
Definition ar_lookup_symbol (lib : library_node) (identifier : list Z) : outcome ar_symbol_lookup :=
  let strings := import_symbol_string_table lib in
  let file := lib_file lib in
  obind (binary_search (S (length strings)) strings identifier 0 (zlen strings - 1)) (fun found =>
  if found =? -1 then Done lookup_failed else
  if found >=? amount_of_symbols lib then Crash else
  obind (read_int file (symbol_member_indices lib + 2 * found) 2) (fun member_index =>
  if (member_index =? 0) || (member_index >? amount_of_members lib) then Done lookup_failed else
  obind (read_int file (member_offsets lib + 4 * (member_index - 1)) 4) (fun member_offset =>
  if member_offset + 60 >? zlen file then Done lookup_failed else
  obind (read file (member_offset + 48) 10) (fun size_bytes =>
  match string_to_u64 (string_strip_whitespace size_bytes) with
  | None => Done lookup_failed
  | Some file_size =>
      if (file_size >? zlen file) || (member_offset + file_size >? zlen file) then Done lookup_failed else
      if file_size <? 20 then Done lookup_failed else
      let data := member_offset + 60 in
      obind (read_int file data 2) (fun signature_1 =>
      obind (read_int file (data + 2) 2) (fun signature_2 =>
      if (signature_1 =? 0) && (signature_2 =? 65535) then
        if file_size <=? 20 + zlen identifier + 1 then Done lookup_failed else
        obind (read_int file (data + file_size - 1) 1) (fun last =>
        if negb (last =? 0) then Done lookup_failed else Done (import_header data file_size))
      else Done (object_file data file_size)))
  end)))).

(** explain.c 415-417: the name of the dll behind an import header; reading it must stay inside of the file. *)
Definition dll_name (file : list Z) (header : Z) (identifier : list Z) : outcome (list Z) :=
  cstring_at file (header + 20 + zlen identifier + 1).
