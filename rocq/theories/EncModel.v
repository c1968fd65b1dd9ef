(** Model of the instruction encoder: emit_x64.c 446-690 and 1130-1240.

    The emit arena is append-only, so every emitter is a function to the bytes it
    appends.  Failed asserts are [Crash]. *)
From Verif Require Import Base.

(** emit_x64.c 451 [emit_bytes]: [memcpy] of the low [size] bytes of [data]. *)
Fixpoint emit_bytes (size : nat) (data : Z) : list Z :=
  match size with
  | O => []
  | S n => data mod 256 :: emit_bytes n (data / 256)
  end.
Definition emit (v : Z) : list Z := emit_bytes 1 v.
Definition emit_u32 (v : Z) : list Z := emit_bytes 4 v.

(** parse_asm_block.c 3-17 [enum legacy_prefixes] as bit positions. *)
Definition PF0 := 0. Definition PF2 := 1. Definition PF3 := 2. Definition P64 := 3.
Definition P65 := 4. Definition P66 := 5. Definition P67 := 6. Definition PVEX := 8.

(** parse_asm_block.c 31 [struct prefixes]; the flags are the [Z] bit mask. *)
Record prefixes : Set := mkprefixes { legacy : Z; vex_register : Z }.

(** parse_asm_block.c 40 [no_prefix], 36 [create_prefixes] *)
Definition no_prefix : prefixes := mkprefixes 0 0.
Definition create_prefixes (p : Z) : prefixes := mkprefixes p 0.

(** emit_x64.c 485-512 [struct opcode]: [amount_of_bytes] of [bytes]. *)
Definition one_byte_opcode (op : Z) : list Z := [op].
Definition two_byte_opcode (op : Z) : list Z := [0x0F; op].
Definition three_byte_opcode (op1 op2 : Z) : list Z := [0x0F; op1; op2].

(** emit_x64.c 411 [register_is_extended] *)
Definition register_is_extended (r : Z) : bool := negb (Z.land r 0xF8 =? 0).
Definition INVALID_REGISTER := -1.
Definition REGISTER_A := 0. Definition REGISTER_C := 1. Definition REGISTER_D := 2.
Definition REGISTER_SP := 4. Definition REGISTER_BP := 5.
Definition REGISTER_SIB_EXTENSION := REGISTER_SP.

Definition flag (c : bool) (v : Z) : Z := if c then v else 0.
Definition when (c : bool) (bs : list Z) : list Z := if c then bs else [].

(** emit_x64.c 581-626: the VEX branch.  The two asserts on the prefixes say that
    only one of 66, F2, F3 accompanies VEX. *)
Definition emit_vex_and_opcode (p : prefixes) (reg regm index size : Z) (opcode : list Z) : outcome (list Z) :=
  let has b := Z.testbit (legacy p) b in
  let three := (Nat.eqb (length opcode) 3) in
  let is_three_byte :=
    register_is_extended regm || ((0 <=? index) && register_is_extended index) || three in
  if has PF0 || has P64 || has P65 || has P67
     || (has P66 && has PF2) || (has P66 && has PF3) || (has PF2 && has PF3)
  then Crash
  else
    let simd := if has PF2 then 3 else if has PF3 then 2 else if has P66 then 1 else 0 in
    let last_byte := Z.lor (Z.lor (Z.shiftl (Z.land (Z.lnot (vex_register p)) 15) 3)
                                  (flag (size =? 32) 4)) simd in
    let opc := last opcode 0 in
    if is_three_byte then
      let rex := Z.lor (Z.lor (flag (negb (register_is_extended reg)) 4)
                              (flag (negb (register_is_extended regm)) 1))
                       (if 0 <=? index then flag (negb (register_is_extended index)) 2 else 2) in
      if three && negb ((nth 1 opcode 0 =? 0x38) || (nth 1 opcode 0 =? 0x3A)) then Crash
      else
        let mmmmm := if three then (if nth 1 opcode 0 =? 0x38 then 2 else 3) else 1 in
        Done (emit 0xC4 ++ emit (Z.lor (Z.shiftl rex 5) mmmmm) ++ emit last_byte ++ emit opc)
    else
      Done (emit 0xC5 ++ emit (Z.lor last_byte (flag (negb (register_is_extended reg)) 0x80)) ++ emit opc).

(** emit_x64.c 628-651: legacy prefixes, REX and opcode. *)
Definition emit_legacy_and_opcode (p : prefixes) (reg regm index size : Z) (opcode : list Z) : list Z :=
  let has b := Z.testbit (if size =? 2 then Z.lor (legacy p) (2 ^ P66) else legacy p) b in
  let rex := Z.lor (Z.lor (Z.lor (flag (size =? 8) 0x48)
                                 (flag (register_is_extended reg) 0x44))
                          (flag (register_is_extended regm) 0x41))
                   (flag ((0 <=? index) && register_is_extended index) 0x42) in
  when (has PF0) (emit 0xF0) ++ when (has PF2) (emit 0xF2) ++ when (has PF3) (emit 0xF3)
  ++ when (has P64) (emit 0x64) ++ when (has P65) (emit 0x65) ++ when (has P66) (emit 0x66)
  ++ when (has P67) (emit 0x67)
  ++ when (negb (rex =? 0)) (emit rex)
  ++ concat (map emit opcode).

(** emit_x64.c 577 [emit_prefixes_and_opcode] *)
Definition emit_prefixes_and_opcode (p : prefixes) (reg regm index size : Z) (opcode : list Z) : outcome (list Z) :=
  if Z.testbit (legacy p) PVEX then emit_vex_and_opcode p reg regm index size opcode
  else Done (emit_legacy_and_opcode p reg regm index size opcode).

(** emit_x64.c 669 [make_modrm], 679 [make_sib]; the arguments are below 4, 8, 8
    at every call ([& 7]), so the asserts hold. *)
Definition make_modrm (md reg rm : Z) : Z := Z.lor (Z.lor (Z.shiftl md 6) (Z.shiftl reg 3)) rm.
Definition make_sib (shift index base : Z) : Z := Z.lor (Z.lor (Z.shiftl shift 6) (Z.shiftl index 3)) base.

Definition MODRM_REGM := 0. Definition MODRM_REGM8 := 1.
Definition MODRM_REGM32 := 2. Definition MODRM_REG := 3.

(** emit_x64.c 1130 [emit_register_op__internal] *)
Definition emit_register_op (p : prefixes) (opcode : list Z) (reg regm size : Z) : outcome (list Z) :=
  obind (emit_prefixes_and_opcode p reg regm INVALID_REGISTER size opcode) (fun head =>
  Done (head ++ emit (make_modrm MODRM_REG (Z.land reg 7) (Z.land regm 7)))).

(** A register-relative [struct emit_location] whose base and index are loaded
    (the reloading of spilled ones is modelled in EmitModel.v): base and index
    registers, [log_index_scale], [offset], and whether [ir] is set (rip-relative). *)
Record mem_location : Set := mkmem {
  m_base : Z; m_index : Z; m_log_scale : Z; m_offset : Z; m_ir : bool; m_size : Z }.

(** The immediate operand: [size] and [value]. *)
Definition emit_immediate (imm : option (Z * Z)) : outcome (list Z) :=
  match imm with
  | None => Done []
  | Some (size, value) =>
      if (size =? 1) || (size =? 2) || (size =? 4) || (size =? 8)
      then Done (emit_bytes (Z.to_nat size) value) else Crash
  end.

(** emit_x64.c 1176-1194 *)
Definition choose_mod (loc : mem_location) : Z :=
  if m_ir loc then MODRM_REGM
  else if (m_offset loc >? 127) || (m_offset loc <? -128) then MODRM_REGM32
  else if negb (m_offset loc =? 0) then MODRM_REGM8
  else if m_base loc =? REGISTER_BP then MODRM_REGM8
  else MODRM_REGM.

(** emit_x64.c 1196-1214 *)
Definition emit_modrm_sib (md other_reg : Z) (loc : mem_location) : list Z :=
  let reg := Z.land other_reg 7 in
  if 0 <=? m_index loc then
    let log_size := if m_index loc =? REGISTER_SP then 0 else m_log_scale loc in
    emit (make_modrm md reg REGISTER_SIB_EXTENSION)
    ++ emit (make_sib log_size (Z.land (m_index loc) 7) (Z.land (m_base loc) 7))
  else if m_base loc =? REGISTER_SIB_EXTENSION then
    emit (make_modrm md reg REGISTER_SIB_EXTENSION)
    ++ emit (make_sib md REGISTER_SP (Z.land (m_base loc) 7))
  else emit (make_modrm md reg (Z.land (m_base loc) 7)).

(** emit_x64.c 1157 [emit_register_relative__internal].  The result is the bytes and,
    for a rip-relative operand, the patch: the position of the 32-bit hole and
    [rip_at], both relative to the start of these bytes.  [size] of the location
    must be a power of two and no smaller than the immediate (asserts). *)
Definition emit_register_relative (p : prefixes) (opcode : list Z) (other_reg : Z)
           (loc : mem_location) (imm : option (Z * Z)) : outcome (list Z * option (Z * Z)) :=
  if negb (m_ir loc) && ((m_offset loc >? 2147483647) || (m_offset loc <? -2147483648)) then Crash
  else if m_ir loc && negb ((m_index loc =? -1) && (m_base loc =? REGISTER_BP)) then Crash
  else
  obind (emit_prefixes_and_opcode p other_reg (m_base loc) (m_index loc) (m_size loc) opcode) (fun head =>
  let md := choose_mod loc in
  let before := head ++ emit_modrm_sib md other_reg loc in
  let disp := if m_ir loc then emit_u32 0
              else if md =? MODRM_REGM32 then emit_u32 (m_offset loc)
              else if md =? MODRM_REGM8 then emit (m_offset loc)
              else [] in
  obind (emit_immediate imm) (fun i =>
  let bytes := before ++ disp ++ i in
  Done (bytes,
        if m_ir loc then Some (Z.of_nat (length before), Z.of_nat (length bytes)) else None))).

(** main.c 949 [emit_patch] for [PATCH_rip_relative]: offset of the hole and rip in the
    destination function, the target symbol's address and the offset in it. *)
Record rip_patch : Set := mkpatch { pt_hole : Z; pt_rip_at : Z; pt_source_offset : Z }.

(** coff_writer.c 1663-1700: write [source - rip] as an [s32] at the hole; [save_truncate_smm_to_s32] asserts that it fits. *)
Definition apply_rip_patch (code : list Z) (dest_rva source_rva : Z) (pt : rip_patch) : outcome (list Z) :=
  let v := source_rva + pt_source_offset pt - (dest_rva + pt_rip_at pt) in
  if (v <? -2147483648) || (v >? 2147483647) then Crash
  else
    let hole := Z.to_nat (pt_hole pt) in
    Done (firstn hole code ++ emit_u32 v ++ skipn (hole + 4) code).

(** obj_writer.c 2887-2905: the addend left in the hole for the linker, which gets a
    REL32 relocation.  The assignment truncates to [s32]. *)
Definition object_addend (pt : rip_patch) : Z :=
  wraps 32 (pt_hole pt + 4 - pt_rip_at pt + pt_source_offset pt).
Definition write_object_addend (code : list Z) (pt : rip_patch) : list Z :=
  let hole := Z.to_nat (pt_hole pt) in
  firstn hole code ++ emit_u32 (object_addend pt) ++ skipn (hole + 4) code.

(** emit_x64.c 1322-1333, 2216-2217: [mov r, imm] is written by hand. *)
Definition emit_mov_immediate (reg size value : Z) : list Z :=
  let rex := Z.lor (flag (size =? 8) 0x48) (flag (register_is_extended reg) 0x41) in
  when (negb (rex =? 0)) (emit rex)
  ++ emit (0xB8 + Z.land reg 7)
  ++ (if size =? 8 then emit_bytes 8 value else emit_bytes 4 value).

(** emit_x64.c 899-927 (end of [spill_register]), general purpose registers: the store
    to the stack slot is written by hand; note that it never uses mod 0. *)
Definition emit_spill_store (reg size offset : Z) : list Z :=
  let head := emit_legacy_and_opcode no_prefix reg REGISTER_BP (-1) size
                (one_byte_opcode (if size =? 1 then 0x88 else 0x89)) in
  let md := if (offset >? 127) || (offset <? -128) then MODRM_REGM32 else MODRM_REGM8 in
  head ++ emit (make_modrm md (Z.land reg 7) REGISTER_BP)
  ++ (if md =? MODRM_REGM32 then emit_u32 offset else emit offset).
