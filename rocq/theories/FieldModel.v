(** Model of the instructions emitted for reading and writing a bit-field
    (emit_x64.c 1999-2087), as operations on register words. *)
From Verif Require Import Base IntTypes.

(** ast.c [struct ast_bitfield_type]: the declared type, the index of the field's lowest bit
    in the storage unit and the width. *)
Record bitfield : Set := mkbitfield { base_type : ity; bit_index : Z; field_width : Z }.

(** The emitted shifts by an immediate on an [n]-bit register operand: the processor masks the
    amount to 5 bits, or 6 for a 64-bit operand. *)
Definition amount (n k : Z) : Z := k mod (if n =? 64 then 64 else 32).
Definition shift_left (n r k : Z) : Z := wrapu n (r * 2 ^ amount n k).
Definition shift_right (n r k : Z) : Z := wrapu n r / 2 ^ amount n k.
Definition shift_arithmetic_right (n r k : Z) : Z := wrapu n (wraps n r / 2 ^ amount n k).

(** C's [a << k] on u64 as compiled for x64: the amount is masked to 6 bits. *)
Definition u64_shift_left (a k : Z) : Z := wrapu 64 (a * 2 ^ (k mod 64)).

(** emit_x64.c 1999-2034 [emit_load_bitfield].  [loc] is the register after
    [emit_load_gpr]: its low bits are the storage unit, the bits above are whatever the register held.
    The result is the operand size in bits and the register. *)
Definition emit_load_bitfield (b : bitfield) (loc : Z) : Z * Z :=
  let bit_size := if size (base_type b) <=? 4 then 32 else 64 in
  let loc :=
    if bit_index b + field_width b <? bit_size
    then shift_left bit_size loc (bit_size - (bit_index b + field_width b))
    else loc in
  let loc :=
    if negb (field_width b =? bit_size)
    then if type_is_signed (base_type b)
         then shift_arithmetic_right bit_size loc (bit_size - field_width b)
         else shift_right bit_size loc (bit_size - field_width b)
    else loc in
  ((if field_width b <=? 32 then 32 else 64), loc).

(** emit_x64.c 2036-2077 [emit_store_bitfield]: the new contents of the storage unit.  [lhs]
    and [rhs] are the registers after the loads; [size 1] and [size 4] operands use 32-bit
    instructions, [size 2] 16-bit ones; [emit_store] writes the low bits. *)
Definition emit_store_bitfield (b : bitfield) (lhs rhs : Z) : Z :=
  let n := match size (base_type b) with 2 => 16 | 8 => 64 | _ => 32 end in
  let mask := wrapu 64 (u64_shift_left 1 (field_width b) - 1) in
  let rhs := Z.land rhs mask in
  let rhs := if bit_index b =? 0 then rhs else shift_left n rhs (bit_index b) in
  let lhs := Z.land lhs (wrapu 64 (Z.lnot (u64_shift_left mask (bit_index b)))) in
  wrapu (bits (base_type b)) (Z.lor lhs rhs).
