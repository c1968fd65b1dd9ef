(** A 64-bit machine executing the integer instructions the compiler emits (Intel SDM
    volume 2).  This file does not mention the compiler.  An instruction outside this
    subset, a division fault, or a use of undefined flags has no successor state.

    Simplifications: every address is readable and writable, instructions are fetched
    from a fixed byte list (code is not data), and only CF, ZF, SF and OF are kept;
    [None] means that the flags are undefined. *)
From Verif Require Import Base X64Decode.

Record flags : Set := mkflags { f_cf : bool; f_zf : bool; f_sf : bool; f_of : bool }.

Record machine : Type := mkmachine {
  regs : Z -> Z;
  mem : Z -> Z;
  fl : option flags;
  pc : Z }.

Definition upd (f : Z -> Z) (k v : Z) : Z -> Z := fun x => if x =? k then v else f x.

(** Little-endian memory access of [n] bytes; addresses wrap around at 2^64. *)
Fixpoint load (n : nat) (mm : Z -> Z) (a : Z) : Z :=
  match n with
  | O => 0
  | S n => mm (wrapu 64 a) mod 256 + 256 * load n mm (a + 1)
  end.
Fixpoint store (n : nat) (mm : Z -> Z) (a v : Z) : Z -> Z :=
  match n with
  | O => mm
  | S n => store n (upd mm (wrapu 64 a) (v mod 256)) (a + 1) (v / 256)
  end.

(** Registers are read and written at 1, 2, 4 or 8 bytes.  Writing 4 bytes clears the
    upper half, writing 1 or 2 bytes leaves the other bits alone (SDM volume 1, 3.4.1.1). *)
Definition get_reg (rf : Z -> Z) (rex : bool) (size r : Z) : Z :=
  if size =? 1 then let (r', pos) := byte_register rex r in (rf r' / 2 ^ pos) mod 256
  else rf r mod 2 ^ (8 * size).
Definition set_bits (old pos n v : Z) : Z :=
  old - (old / 2 ^ pos) mod 2 ^ n * 2 ^ pos + v mod 2 ^ n * 2 ^ pos.
Definition set_reg (rf : Z -> Z) (rex : bool) (size r v : Z) : Z -> Z :=
  if size =? 1 then let (r', pos) := byte_register rex r in upd rf r' (set_bits (rf r') pos 8 v)
  else if size =? 2 then upd rf r (set_bits (rf r) 0 16 v)
  else upd rf r (v mod 2 ^ (8 * size)).

Definition get_rm (m : machine) (rex : bool) (next size : Z) (rm : rm_operand) : Z :=
  match rm with
  | RmReg r => get_reg (regs m) rex size r
  | RmMem b i d => load (Z.to_nat size) (mem m) (effective_address (regs m) next b i d)
  end.
Definition with_reg (m : machine) (rex : bool) (size r v : Z) : machine :=
  mkmachine (set_reg (regs m) rex size r v) (mem m) (fl m) (pc m).
Definition set_rm (m : machine) (rex : bool) (next size : Z) (rm : rm_operand) (v : Z) : machine :=
  match rm with
  | RmReg r => with_reg m rex size r v
  | RmMem b i d =>
      mkmachine (regs m) (store (Z.to_nat size) (mem m) (effective_address (regs m) next b i d) v) (fl m) (pc m)
  end.
Definition with_flags (m : machine) (f : option flags) : machine :=
  mkmachine (regs m) (mem m) f (pc m).
Definition goto (m : machine) (p : Z) : machine := mkmachine (regs m) (mem m) (fl m) p.

(** Flags of a result of [n] bits: carry and overflow are given. *)
Definition result_flags (n r : Z) (cf o : bool) : flags :=
  mkflags cf (r =? 0) (2 ^ (n - 1) <=? r) o.

(** The arithmetic group on [n]-bit operands: ADD, OR, AND, SUB, XOR, CMP.  The result is
    the value to write (none for CMP) and the flags. *)
Definition alu (k n a b : Z) : option (option Z * flags) :=
  let logic r := Some (Some r, result_flags n r false false) in
  let sum := (a + b) mod 2 ^ n in
  let dif := (a - b) mod 2 ^ n in
  let dif_flags := result_flags n dif (a <? b) (negb (wraps n a - wraps n b =? wraps n dif)) in
  if k =? 0 then Some (Some sum, result_flags n sum (2 ^ n <=? a + b) (negb (wraps n a + wraps n b =? wraps n sum)))
  else if k =? 1 then logic (Z.lor a b)
  else if k =? 4 then logic (Z.land a b)
  else if k =? 5 then Some (Some dif, dif_flags)
  else if k =? 6 then logic (Z.lxor a b)
  else if k =? 7 then Some (None, dif_flags)
  else None.

(** Condition codes (SDM volume 1, appendix B); the parity conditions are left out. *)
Definition condition (cc : Z) (f : flags) : option bool :=
  let base := if cc / 2 =? 0 then Some (f_of f)
              else if cc / 2 =? 1 then Some (f_cf f)
              else if cc / 2 =? 2 then Some (f_zf f)
              else if cc / 2 =? 3 then Some (f_cf f || f_zf f)
              else if cc / 2 =? 4 then Some (f_sf f)
              else if cc / 2 =? 6 then Some (xorb (f_sf f) (f_of f))
              else if cc / 2 =? 7 then Some (xorb (f_sf f) (f_of f) || f_zf f)
              else None in
  if cc mod 2 =? 0 then base else option_map negb base.

(** Shifts: /4 SHL, /5 SHR, /6 SHL (the undocumented alias), /7 SAR; the count is masked to
    5 bits, 6 bits for 8-byte operands. *)
Definition shift_count (size c : Z) : Z := c mod (if size =? 8 then 64 else 32).
Definition shift (k n a c : Z) : option Z :=
  if (k =? 4) || (k =? 6) then Some ((a * 2 ^ c) mod 2 ^ n)
  else if k =? 5 then Some (a / 2 ^ c)
  else if k =? 7 then Some ((wraps n a / 2 ^ c) mod 2 ^ n)
  else None.

(** Immediate bytes that follow the operands. *)
Definition imm_size (i : insn) : nat :=
  if negb (i_map i =? 0) then 0%nat
  else if existsb (Z.eqb (i_opc i)) [0x80; 0x83; 0xC0; 0xC1; 0xC6] then 1%nat
  else if existsb (Z.eqb (i_opc i)) [0x81; 0xC7; 0x69] then (if operand_size i =? 2 then 2%nat else 4%nat)
  else 0%nat.

Definition RAX := 0. Definition RCX := 1. Definition RDX := 2.

(** F6/F7: /2 NOT, /3 NEG, /4 MUL, /5 IMUL, /6 DIV, /7 IDIV.  [low] and [high] are the
    two halves of the dividend or product. *)
Definition unary (m : machine) (rex : bool) (next size : Z) (ext : Z) (rm : rm_operand) : option machine :=
  let n := 8 * size in
  let v := get_rm m rex next size rm in
  let low := regs m RAX mod 2 ^ n in
  let high := if size =? 1 then (regs m RAX / 2 ^ 8) mod 2 ^ 8 else regs m RDX mod 2 ^ n in
  let set_pair lo hi :=
    with_flags
      (if size =? 1 then with_reg m false 2 RAX (lo mod 2 ^ 8 + 2 ^ 8 * (hi mod 2 ^ 8))
       else with_reg (with_reg m false size RAX lo) false size RDX hi) None in
  if ext =? 2 then Some (set_rm m rex next size rm (2 ^ n - 1 - v))
  else if ext =? 3 then
    match alu 5 n 0 v with
    | Some (Some r, f) => Some (with_flags (set_rm m rex next size rm r) (Some f))
    | _ => None
    end
  else if ext =? 4 then Some (set_pair (low * v) (low * v / 2 ^ n))
  else if ext =? 5 then
    let p := wraps n low * wraps n v in Some (set_pair p (p / 2 ^ n))
  else if ext =? 6 then
    let dividend := low + 2 ^ n * high in
    if v =? 0 then None
    else if 2 ^ n <=? dividend / v then None
    else Some (set_pair (dividend / v) (dividend mod v))
  else if ext =? 7 then
    let dividend := wraps (2 * n) (low + 2 ^ n * high) in
    let d := wraps n v in
    if d =? 0 then None
    else if negb (wraps n (Z.quot dividend d) =? Z.quot dividend d) then None
    else Some (set_pair (Z.quot dividend d) (Z.rem dividend d))
  else None.

(** The effect of an instruction with operands and immediate [imm] (sign extended). *)
Definition exec (i : insn) (imm next : Z) (m : machine) : option machine :=
  let o := i_opc i in
  let rex := i_rex i in
  let byte := Z.even o in
  let size := if byte then 1 else operand_size i in
  let n := 8 * size in
  let rm_v := get_rm m rex next size (i_rm i) in
  let reg_v := get_reg (regs m) rex size (i_reg i) in
  let to_rm v := set_rm m rex next size (i_rm i) v in
  let to_reg v := with_reg m rex size (i_reg i) v in
  let write (dest : Z -> machine) (x : option (option Z * flags)) :=
    match x with
    | Some (Some v, f) => Some (with_flags (dest v) (Some f))
    | Some (None, f) => Some (with_flags m (Some f))
    | None => None
    end in
  let shift_by c :=
    let c := shift_count size c in
    match shift (i_reg i) n rm_v c with
    | Some v => Some (with_flags (to_rm v) (if c =? 0 then fl m else None))
    | None => None
    end in
  let inc_dec k :=
    match alu k n rm_v 1, fl m with
    | Some (Some v, f), Some f0 =>
        Some (with_flags (to_rm v) (Some (mkflags (f_cf f0) (f_zf f) (f_sf f) (f_of f))))
    | Some (Some v, f), None => Some (with_flags (to_rm v) None)
    | _, _ => None
    end in
  if i_map i =? 0 then
    if (o <? 0x40) && (o mod 8 <? 4) then
      if o mod 8 <? 2 then write to_rm (alu (o / 8) n rm_v reg_v)
      else write to_reg (alu (o / 8) n reg_v rm_v)
    else if (o =? 0x80) || (o =? 0x81) then write to_rm (alu (i_reg i) n rm_v (imm mod 2 ^ n))
    else if o =? 0x83 then write to_rm (alu (i_reg i) n rm_v (imm mod 2 ^ n))
    else if (o =? 0x84) || (o =? 0x85) then
      let r := Z.land rm_v reg_v in Some (with_flags m (Some (result_flags n r false false)))
    else if (o =? 0x86) || (o =? 0x87) then
      match i_rm i with
      | RmReg _ => None
      | RmMem _ _ _ => Some (with_reg (to_rm reg_v) rex size (i_reg i) rm_v)
      end
    else if (o =? 0x88) || (o =? 0x89) then Some (to_rm reg_v)
    else if (o =? 0x8A) || (o =? 0x8B) then Some (to_reg rm_v)
    else if o =? 0x8D then
      match i_rm i with
      | RmMem b x d => Some (to_reg (effective_address (regs m) next b x d))
      | RmReg _ => None
      end
    else if o =? 0x63 then
      Some (to_reg (wraps 32 (get_rm m rex next 4 (i_rm i)) mod 2 ^ n))
    else if o =? 0x69 then
      Some (with_flags (to_reg ((wraps n rm_v * imm) mod 2 ^ n)) None)
    else if (o =? 0xC0) || (o =? 0xC1) then shift_by (imm mod 256)
    else if (o =? 0xD2) || (o =? 0xD3) then shift_by (regs m RCX mod 256)
    else if (o =? 0xC6) || (o =? 0xC7) then
      if i_reg i =? 0 then Some (to_rm (imm mod 2 ^ n)) else None
    else if (o =? 0xF6) || (o =? 0xF7) then unary m rex next size (i_reg i) (i_rm i)
    else if (o =? 0xFE) || (o =? 0xFF) then
      if i_reg i =? 0 then inc_dec 0 else if i_reg i =? 1 then inc_dec 5 else None
    else None
  else if i_map i =? 1 then
    let opsize := operand_size i in
    let extend (ext : Z -> Z) (from : Z) :=
      Some (with_reg m rex opsize (i_reg i) (ext (get_rm m rex next from (i_rm i)) mod 2 ^ (8 * opsize))) in
    if (0x90 <=? o) && (o <=? 0x9F) then
      match fl m with
      | Some f => match condition (o - 0x90) f with
                  | Some b => Some (set_rm m rex next 1 (i_rm i) (if b then 1 else 0))
                  | None => None
                  end
      | None => None
      end
    else if o =? 0xAF then
      Some (with_flags (to_reg ((wraps n reg_v * wraps n rm_v) mod 2 ^ n)) None)
    else if o =? 0xB6 then extend (fun x => x) 1
    else if o =? 0xB7 then extend (fun x => x) 2
    else if o =? 0xBE then extend (wraps 8) 1
    else if o =? 0xBF then extend (wraps 16) 2
    else None
  else None.

(** Only the operand-size and lock prefixes; the others select different instructions. *)
Definition plain_prefixes (ps : list Z) : bool := forallb (fun p => (p =? 0x66) || (p =? 0xF0)) ps.

(** One step: fetch at [pc], decode, execute. *)
Definition step (code : list Z) (m : machine) : option machine :=
  if pc m <? 0 then None else
  let bs := skipn (Z.to_nat (pc m)) code in
  let next rest := Z.of_nat (length code) - Z.of_nat (length rest) in
  match decode_head bs with
  | None => None
  | Some (h, rest) =>
      let size := if h_w h then 8 else if existsb (Z.eqb 0x66) (h_legacy h) then 2 else 4 in
      if negb (plain_prefixes (h_legacy h)) then None
      else match h_vex h with Some _ => None | None =>
      if (h_map h =? 0) && (0xB8 <=? h_opc h) && (h_opc h <=? 0xBF) then        (* MOV r, imm *)
        match take_disp (Z.to_nat size) rest with
        | Some (v, rest) =>
            Some (goto (with_reg m (h_rex h) size (8 * h_b h + (h_opc h - 0xB8)) v) (next rest))
        | None => None
        end
      else if (h_map h =? 0) && (h_opc h =? 0x99) then                            (* CWD, CDQ, CQO *)
        let s := if wraps (8 * size) (regs m RAX) <? 0 then -1 else 0 in
        Some (goto (with_reg m false size RDX s) (next rest))
      else if (h_map h =? 0) && (h_opc h =? 0xE9) then                            (* JMP rel32 *)
        match take_disp 4 rest with
        | Some (d, rest) => Some (goto m (next rest + d))
        | None => None
        end
      else if (h_map h =? 1) && (0x80 <=? h_opc h) && (h_opc h <=? 0x8F) then   (* Jcc rel32 *)
        match take_disp 4 rest, fl m with
        | Some (d, rest), Some f =>
            match condition (h_opc h - 0x80) f with
            | Some true => Some (goto m (next rest + d))
            | Some false => Some (goto m (next rest))
            | None => None
            end
        | _, _ => None
        end
      else
        match decode_insn bs with
        | None => None
        | Some (i, rest) =>
            match take_disp (imm_size i) rest with
            | None => None
            | Some (imm, rest) =>
                match exec i imm (next rest) m with
                | Some m' => Some (goto m' (next rest))
                | None => None
                end
            end
        end
      end
  end.

(** Any number of steps. *)
Inductive steps (code : list Z) : machine -> machine -> Prop :=
| steps_refl : forall m, steps code m m
| steps_step : forall m m1 m2, step code m = Some m1 -> steps code m1 m2 -> steps code m m2.

(** [bs] are the bytes of [code] at position [p]. *)
Definition at_code (code : list Z) (p : Z) (bs : list Z) : Prop :=
  0 <= p /\ exists rest, skipn (Z.to_nat p) code = bs ++ rest.
