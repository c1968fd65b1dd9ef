(** Model of the number leaves of the debug information, obj_writer.c 34-88 and coff_writer.c 74-125.
    The arena is the address [pos] of its next byte and the bytes pushed: [push_struct] aligns to the size of the
    type with zero bytes (std.c 874-899; a fresh arena page is zero), [push_data(arena, u8, n)] does not. *)
From Verif Require Import Base.

(** [n] bytes of [v], little endian. *)
Fixpoint le_bytes (n : nat) (v : Z) : list Z :=
  match n with O => [] | S n => v mod 256 :: le_bytes n (v / 256) end.

Definition aligned (pos alignment : Z) : Z := pos + (- pos) mod alignment.

(** a store through [push_struct(arena, type)] *)
Definition push_struct (size : Z) (v : Z) (st : Z * list Z) : Z * list Z :=
  let '(pos, bytes) := st in
  let padding := (- pos) mod size in
  (pos + padding + size, bytes ++ repeat 0 (Z.to_nat padding) ++ le_bytes (Z.to_nat size) v).
(** a store through [push_data(arena, u8, size)] *)
Definition push_data (size : Z) (v : Z) (st : Z * list Z) : Z * list Z :=
  let '(pos, bytes) := st in (pos + size, bytes ++ le_bytes (Z.to_nat size) v).

(** obj_writer.c 42-56 [push_unsigned_number_leaf] *)
Definition push_unsigned_number_leaf (value : Z) (st : Z * list Z) : Z * list Z :=
  if value <? 0x8000 then push_struct 2 value st
  else if value <=? 65535 then push_struct 2 value (push_struct 2 0x8002 st)
  else if value <=? 4294967295 then push_data 4 value (push_struct 2 0x8004 st)
  else push_data 8 value (push_struct 2 0x800a st).

(** obj_writer.c 59-88 [push_signed_number_leaf] *)
Definition push_signed_number_leaf (value : Z) (st : Z * list Z) : Z * list Z :=
  if value >=? 0 then
    if value <? 0x8000 then push_struct 2 value st
    else if value <=? 32767 then push_struct 2 value (push_struct 2 0x8001 st)
    else if value <=? 2147483647 then push_data 4 value (push_struct 2 0x8003 st)
    else push_data 8 value (push_struct 2 0x8009 st)
  else
    if value >=? -128 then push_struct 1 value (push_struct 2 0x8000 st)
    else if value >=? -32768 then push_struct 2 value (push_struct 2 0x8001 st)
    else if value >=? -2147483648 then push_struct 4 value (push_struct 2 0x8003 st)
    else push_struct 8 value (push_struct 2 0x8009 st).

(** obj_writer.c 264-267: the value of an enumerator in a field list. *)
Definition enumerate_leaf (enum_value : Z) (st : Z * list Z) : Z * list Z :=
  push_data 4 enum_value (push_struct 2 0x8003 st).

(** coff_writer.c 3126-3135: the beginning of the S_CONSTANT record of an enumerator in the pdb; the record
    starts at a multiple of four: length, kind, type index, value. *)
Definition pdb_constant (type_index enum_value : Z) (st : Z * list Z) : Z * list Z :=
  push_signed_number_leaf (wraps 32 enum_value) (push_struct 4 type_index (push_struct 2 0x1107 (push_struct 2 0 st))).

(** obj_writer.c 2240-2246: the same in an object file, where the s32 is converted to an u64. *)
Definition obj_constant (type_index enum_value : Z) (st : Z * list Z) : Z * list Z :=
  push_unsigned_number_leaf (wrapu 64 (wraps 32 enum_value)) (push_struct 4 type_index (push_struct 2 0x1107 (push_struct 2 0 st))).

(** coff_writer.c 74-125 [pdb_numeric_leaf_size_or_error] *)
Definition pdb_numeric_leaf_size_or_error (numeric_leaf : Z) : Z :=
  if negb (Z.testbit numeric_leaf 15) then 2 else
  if numeric_leaf =? 0x8000 then 3
  else if (numeric_leaf =? 0x8001) || (numeric_leaf =? 0x8002) then 4
  else if (numeric_leaf =? 0x8005) || (numeric_leaf =? 0x8003) || (numeric_leaf =? 0x8004) then 6
  else if (numeric_leaf =? 0x8009) || (numeric_leaf =? 0x800a) || (numeric_leaf =? 0x8006) then 10
  else if (numeric_leaf =? 0x8008) || (numeric_leaf =? 0x8017) || (numeric_leaf =? 0x8018) then 18
  else -1.

(** obj_writer.c 34-40 [push_f3f2f1_align] *)
Fixpoint f3f2f1 (rest : nat) : list Z :=
  match rest with O => [] | S r => 0xf0 + Z.of_nat rest :: f3f2f1 r end.
Definition push_f3f2f1_align (alignment : Z) (st : Z * list Z) : Z * list Z :=
  let '(pos, bytes) := st in
  (aligned pos alignment, bytes ++ f3f2f1 (Z.to_nat (aligned pos alignment - pos))).
