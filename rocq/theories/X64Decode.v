(** Instruction format of the x86-64 architecture in 64-bit mode (Intel SDM volume 2,
    chapter 2: 2.1 legacy prefixes, opcodes, ModR/M and SIB; 2.2.1 REX; 2.3.5 VEX).
    This file does not mention the compiler. *)
From Verif Require Import Base.

(** [n] bits of [b] starting at bit [k]. *)
Definition field (b k n : Z) : Z := (b / 2 ^ k) mod 2 ^ n.

(** Base of a memory operand: a register, the address of the next instruction, or nothing. *)
Inductive mbase : Set := BaseReg (r : Z) | BaseRip | BaseNone.

Inductive rm_operand : Set :=
| RmReg (r : Z)
| RmMem (base : mbase) (index : option (Z * Z)) (disp : Z).   (* index register and scale 1, 2, 4, 8 *)

(** VEX.vvvv as a register number, VEX.L and VEX.pp. *)
Record vex_fields : Set := Vex { v_reg : Z; v_l : Z; v_pp : Z }.

(** [i_map]: 0 one-byte opcodes, 1 [0F], 2 [0F 38], 3 [0F 3A]. *)
Record insn : Set := Insn {
  i_legacy : list Z;
  i_rex : bool;
  i_w : bool;
  i_vex : option vex_fields;
  i_map : Z;
  i_opc : Z;
  i_reg : Z;
  i_rm : rm_operand }.

Definition legacy_prefixes : list Z :=
  [0xF0; 0xF2; 0xF3; 0x2E; 0x36; 0x3E; 0x26; 0x64; 0x65; 0x66; 0x67].
Definition is_legacy (b : Z) : bool := existsb (Z.eqb b) legacy_prefixes.
Definition is_rex (b : Z) : bool := (0x40 <=? b) && (b <=? 0x4F).

Fixpoint take_legacy (bs : list Z) : list Z * list Z :=
  match bs with
  | b :: rest => if is_legacy b then let (ps, r) := take_legacy rest in (b :: ps, r) else ([], bs)
  | [] => ([], [])
  end.

(** Little-endian value of bytes, and its two's complement reading. *)
Fixpoint le_value (bs : list Z) : Z :=
  match bs with [] => 0 | b :: r => b + 256 * le_value r end.
Definition le_signed (bs : list Z) : Z := wraps (8 * Z.of_nat (length bs)) (le_value bs).

Definition take_disp (n : nat) (bs : list Z) : option (Z * list Z) :=
  match n with
  | O => Some (0, bs)
  | _ => if (length bs <? n)%nat then None else Some (le_signed (firstn n bs), skipn n bs)
  end.

Definition disp_size (md : Z) : nat := if md =? 1 then 1%nat else if md =? 2 then 4%nat else 0%nat.

(** ModR/M (2.1.3), SIB (2.1.5) and displacement; [r], [x], [b] are the extension bits. *)
Definition decode_modrm (r x b : Z) (bs : list Z) : option (Z * rm_operand * list Z) :=
  match bs with
  | [] => None
  | m :: rest =>
      let md := field m 6 2 in
      let reg := 8 * r + field m 3 3 in
      let rm := field m 0 3 in
      if md =? 3 then Some (reg, RmReg (8 * b + rm), rest)
      else if rm =? 4 then
        match rest with
        | [] => None
        | s :: rest =>
            let idx := 8 * x + field s 3 3 in
            let index := if idx =? 4 then None else Some (idx, 2 ^ field s 6 2) in
            if (md =? 0) && (field s 0 3 =? 5) then
              match take_disp 4 rest with
              | None => None
              | Some (d, rest) => Some (reg, RmMem BaseNone index d, rest)
              end
            else match take_disp (disp_size md) rest with
                 | None => None
                 | Some (d, rest) => Some (reg, RmMem (BaseReg (8 * b + field s 0 3)) index d, rest)
                 end
        end
      else if (md =? 0) && (rm =? 5) then
        match take_disp 4 rest with
        | None => None
        | Some (d, rest) => Some (reg, RmMem BaseRip None d, rest)
        end
      else match take_disp (disp_size md) rest with
           | None => None
           | Some (d, rest) => Some (reg, RmMem (BaseReg (8 * b + rm)) None d, rest)
           end
  end.

(** Opcode map and opcode byte (2.1.2). *)
Definition decode_opcode (bs : list Z) : option (Z * Z * list Z) :=
  match bs with
  | 0x0F :: 0x38 :: o :: rest => Some (2, o, rest)
  | 0x0F :: 0x3A :: o :: rest => Some (3, o, rest)
  | 0x0F :: o :: rest => Some (1, o, rest)
  | o :: rest => Some (0, o, rest)
  | [] => None
  end.

(** Everything up to and including the opcode: legacy prefixes, then REX or VEX.
    Returns the instruction without its operands and the extension bits W R X B. *)
Record head : Set := Head {
  h_legacy : list Z; h_rex : bool; h_w : bool; h_r : Z; h_x : Z; h_b : Z;
  h_vex : option vex_fields; h_map : Z; h_opc : Z }.

Definition decode_head (bs : list Z) : option (head * list Z) :=
  let (ps, rest) := take_legacy bs in
  match rest with
  | 0xC5 :: p :: o :: rest =>
      Some (Head ps false false (1 - field p 7 1) 0 0
                 (Some (Vex (15 - field p 3 4) (field p 2 1) (field p 0 2))) 1 o, rest)
  | 0xC4 :: p :: q :: o :: rest =>
      Some (Head ps false (field q 7 1 =? 1) (1 - field p 7 1) (1 - field p 6 1) (1 - field p 5 1)
                 (Some (Vex (15 - field q 3 4) (field q 2 1) (field q 0 2))) (field p 0 5) o, rest)
  | c :: rest' =>
      if is_rex c then
        match decode_opcode rest' with
        | Some (m, o, rest) =>
            Some (Head ps true (field c 3 1 =? 1) (field c 2 1) (field c 1 1) (field c 0 1) None m o, rest)
        | None => None
        end
      else
        match decode_opcode rest with
        | Some (m, o, rest) => Some (Head ps false false 0 0 0 None m o, rest)
        | None => None
        end
  | [] => None
  end.

(** An instruction whose opcode has a ModR/M byte; the remaining bytes start with its
    immediate operand, if any. *)
Definition decode_insn (bs : list Z) : option (insn * list Z) :=
  match decode_head bs with
  | None => None
  | Some (h, rest) =>
      match decode_modrm (h_r h) (h_x h) (h_b h) rest with
      | None => None
      | Some (reg, rm, rest) =>
          Some (Insn (h_legacy h) (h_rex h) (h_w h) (h_vex h) (h_map h) (h_opc h) reg rm, rest)
      end
  end.

(** Operand size in bytes of a non-VEX instruction that is not a byte operation (2.2.1.2). *)
Definition operand_size (i : insn) : Z :=
  if i_w i then 8 else if existsb (Z.eqb 0x66) (i_legacy i) then 2 else 4.

(** Byte registers (2.2.1.2): numbers 4 to 7 without a REX prefix are bits 8..15 of
    registers 0 to 3.  Result: the register and the bit position. *)
Definition byte_register (rex : bool) (r : Z) : Z * Z :=
  if negb rex && (4 <=? r) && (r <=? 7) then (r - 4, 8) else (r, 0).

(** The address of a memory operand; [next] is the address of the following instruction. *)
Definition effective_address (regs : Z -> Z) (next : Z) (base : mbase) (index : option (Z * Z)) (disp : Z) : Z :=
  wrapu 64 (match base with BaseReg r => regs r | BaseRip => next | BaseNone => 0 end
            + match index with Some (r, s) => s * regs r | None => 0 end + disp).
