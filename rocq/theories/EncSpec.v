(** What the encoder is asked to produce, in terms of decoded instructions. *)
From Verif Require Import Base X64Decode EncModel.

(** An opcode: the map (0 one-byte, 1 [0F], 2 [0F 38], 3 [0F 3A]) and its byte. *)
Definition opcode_bytes (m o : Z) : list Z :=
  if m =? 0 then one_byte_opcode o
  else if m =? 1 then two_byte_opcode o
  else if m =? 2 then three_byte_opcode 0x38 o
  else three_byte_opcode 0x3A o.

(** Bytes that are prefixes or escapes are not opcodes. *)
Definition legal_opcode (m o : Z) : Prop :=
  0 <= o < 256 /\
  ((m = 0 /\ is_legacy o = false /\ is_rex o = false /\ o <> 0x0F /\ o <> 0xC4 /\ o <> 0xC5)
   \/ (m = 1 /\ o <> 0x38 /\ o <> 0x3A) \/ m = 2 \/ m = 3).

(** The prefix bytes a set of legacy prefixes stands for; 66 is also how 16-bit
    operands are requested. *)
Definition prefix_bytes (p : prefixes) (size : Z) : list Z :=
  map snd (filter (fun x => fst x)
    [ (Z.testbit (legacy p) 0, 0xF0); (Z.testbit (legacy p) 1, 0xF2); (Z.testbit (legacy p) 2, 0xF3);
      (Z.testbit (legacy p) 3, 0x64); (Z.testbit (legacy p) 4, 0x65);
      ((size =? 2) || Z.testbit (legacy p) 5, 0x66); (Z.testbit (legacy p) 6, 0x67) ]).

Definition uses_vex (p : prefixes) : bool := Z.testbit (legacy p) 8.

Definition requested_vex (p : prefixes) (size : Z) : vex_fields :=
  Vex (vex_register p) (if size =? 32 then 1 else 0)
      (if Z.testbit (legacy p) 1 then 3 else if Z.testbit (legacy p) 2 then 2
       else if Z.testbit (legacy p) 5 then 1 else 0).

Definition high (r : Z) : bool := 8 <=? r.

(** The instruction asked for: [reg] is the register operand (or opcode extension),
    [hi] whether an index register 8..15 is used, [base] the r/m register. *)
Definition requested (p : prefixes) (m o reg base : Z) (hi : bool) (size : Z) (rm : rm_operand) : insn :=
  if uses_vex p
  then Insn [] false false (Some (requested_vex p size)) m o reg rm
  else Insn (prefix_bytes p size) ((size =? 8) || high reg || high base || hi) (size =? 8) None m o reg rm.

Definition is_register (r : Z) : Prop := 0 <= r < 16.
Definition is_s32 (d : Z) : Prop := -2147483648 <= d <= 2147483647.

(** A VEX instruction has a [0F] opcode, one SIMD prefix at most, and a register number. *)
Definition vex_ok (p : prefixes) (m : Z) : Prop :=
  uses_vex p = true ->
  m <> 0 /\ is_register (vex_register p) /\
  Z.testbit (legacy p) 0 = false /\ Z.testbit (legacy p) 3 = false /\
  Z.testbit (legacy p) 4 = false /\ Z.testbit (legacy p) 6 = false /\
  (Z.testbit (legacy p) 5 && Z.testbit (legacy p) 1 = false) /\
  (Z.testbit (legacy p) 5 && Z.testbit (legacy p) 2 = false) /\
  (Z.testbit (legacy p) 1 && Z.testbit (legacy p) 2 = false).

(** The memory operands the encoder handles: every base and index register except
    - index register 4 (rsp), which the architecture does not have,
    - base r12 without an index, and base r13 with displacement 0 (see the refuted
      theorems in EncProps.v). *)
Definition encodable (base : Z) (index : option Z) (disp : Z) : Prop :=
  is_register base /\ is_s32 disp /\
  match index with
  | Some i => is_register i /\ i <> 4
  | None => base <> 12
  end /\
  ~ (base = 13 /\ disp = 0).

Definition index_number (index : option Z) : Z := match index with Some i => i | None => -1 end.

Definition immediate_ok (imm : option (Z * Z)) : Prop :=
  match imm with None => True | Some (s, _) => s = 1 \/ s = 2 \/ s = 4 \/ s = 8 end.

Definition immediate_bytes (imm : option (Z * Z)) : list Z :=
  match imm with None => [] | Some (s, v) => emit_bytes (Z.to_nat s) v end.
