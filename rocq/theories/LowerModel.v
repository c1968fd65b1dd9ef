(** Model of the intermediate code the parser generates for integer expressions, assignments,
    compound assignments, increments and pointer arithmetic (parse.c), and of what that code
    means: a machine with a stack of operands.

    [&&], [||] and [?:] generate jumps: see BranchModel.v.  Left out: floating point, atomics, calls,
    array operands, warnings and [defined_type], which only steers warnings. *)
From Coq Require Import List ZArith Bool.
From Verif Require Import Base IntTypes CSpec IntModel FieldModel LowerSpec.
Import ListNotations.
Open Scope Z_scope.

(* ------------------------------------------------------------------ *)
(** ** Instructions *)

(** ir.h 371-490: conversions; numbers are bits. *)
Inductive cast_op : Set :=
| Sign_extend (from to : Z)
| Zero_extend (from to : Z)
| Truncate_to (n : Z)
| Cast_to_bool.

(** ir.h 44-490, [enum ir_kind]; [n]: u32/u64 (or u8..u64) as a number of bits, [t]: s32, u32,
    s64, u64 (or s8..u64).  [lhs] is the variant that acts on the entry below the top. *)
Inductive ir : Set :=
| Integer_literal (l : lit)
| Identifier (x : nat)
| Cast (lhs : bool) (c : cast_op)
| Load_bitfield (lhs : bool) (b : bitfield)
| Bitwise_not (n : Z) | Negate (n : Z) | Logical_not (n : Z)
| Add (n : Z) | Subtract (n : Z)
| Multiply (t : ity) | Divide (t : ity) | Modulo (t : ity)
| And (n : Z) | Or (n : Z) | Xor (n : Z)
| Left_shift (t : ity) | Right_shift (t : ity)
| Bigger_equals (t : ity) | Smaller_equals (t : ity) | Bigger (t : ity) | Smaller (t : ity)
| Equals (n : Z) | Unequals (n : Z)
| Add_assignment (n : Z) | Subtract_assignment (n : Z)
| And_assignment (n : Z) | Or_assignment (n : Z) | Xor_assignment (n : Z)
| Multiply_assignment (t : ity) | Divide_assignment (t : ity) | Modulo_assignment (t : ity)
| Left_shift_assignment (t : ity) | Right_shift_assignment (t : ity)
| Increment (post : bool) (n : Z) | Decrement (post : bool) (n : Z)
| Increment_bool (post : bool) | Decrement_bool (post : bool)
| Increment_pointer (post : bool) (size : Z) | Decrement_pointer (post : bool) (size : Z)
| Store
| Store_bitfield (b : bitfield)
| Duplicate_lhs
| Swap_lhs_rhs
| Pop_expression
| Nop
| Pointer_subscript (size : Z)
| Jump_label (label : nat)
| Jump (label : nat)
| Jump_if (on_true : bool) (label : nat).

(* ------------------------------------------------------------------ *)
(** ** Meaning of the instructions

    emit_x64.c 2640-2645, 2775-2910, 3230-3290, 3700-3725, 3841-4645: an operand is a value in a
    register, an immediate, or the location of a variable, which is only read when an
    instruction needs it.  Lines 836-845: an immediate keeps 64 bits whatever its size is. *)
Inductive operand : Set :=
| Value (n v : Z)
| Immediate (n v : Z)
| Location (x : nat).

(** [Trap]: the processor raises a divide error.  [Stuck]: an operand is missing or does not
    have the size the instruction works with. *)
Inductive result (A : Type) : Type :=
| Next (a : A)
| Trap
| Stuck.
Arguments Next {A} _. Arguments Trap {A}. Arguments Stuck {A}.

Definition rbind {A B} (x : result A) (f : A -> result B) : result B :=
  match x with Next a => f a | Trap => Trap | Stuck => Stuck end.

Definition memory := nat -> Z.
Definition update (m : memory) (x : nat) (v : Z) : memory := fun y => if Nat.eqb y x then v else m y.

Section Machine.
(** The size of each variable in bits (the storage unit for a bit-field). *)
Variable var_bits : nat -> Z.

Definition operand_bits (c : operand) : Z :=
  match c with Value n _ | Immediate n _ => n | Location x => var_bits x end.
Definition contents (m : memory) (c : operand) : Z :=
  match c with Value _ v => v | Immediate n v => wrapu n v | Location x => m x end.

(** The operand as an [n]-bit word. *)
Definition fetch (m : memory) (n : Z) (c : operand) : result Z :=
  if operand_bits c =? n then Next (contents m c) else Stuck.

(** A word read with the signedness of a type. *)
Definition number (t : ity) (w : Z) : Z := if type_is_signed t then wraps (bits t) w else wrapu (bits t) w.

(** emit_x64.c 2522-2539 [emit_integer_cast], 2781-2791, 2835-2904, 3230-3244.  An immediate is
    loaded with the size it is extended to, for u32 to u64 (2900-2904) with 4 bytes; truncation only
    changes the size. *)
Definition cast_word (c : cast_op) (m : memory) (a : operand) : result operand :=
  match c, a with
  | Sign_extend _ to, Immediate _ v => Next (Value to (wrapu to v))
  | Zero_extend from to, Immediate _ v => Next (Value to (wrapu (if from =? 32 then 32 else to) v))
  | Sign_extend from to, _ => rbind (fetch m from a) (fun w => Next (Value to (wrapu to (wraps from w))))
  | Zero_extend from to, _ => rbind (fetch m from a) (fun w => Next (Value to (wrapu to w)))
  | Truncate_to n, Immediate _ v => Next (Immediate n v)
  | Truncate_to n, _ => if n <=? operand_bits a then Next (Value n (wrapu n (contents m a))) else Stuck
  | Cast_to_bool, _ => Next (Value 8 (if contents m a =? 0 then 0 else 1))
  end.

(** emit_x64.c 1687-1804, 4277-4303, 4536-4584: DIV and IDIV with the operand size of the type;
    8-bit operands are divided as AX. *)
Definition divide (remainder : bool) (t : ity) (a b : Z) : result Z :=
  let x := number t a in
  let y := number t b in
  if y =? 0 then Trap
  else if type_is_signed t && (x =? - 2 ^ (bits t - 1)) && (y =? -1) then Trap
  else Next (wrapu (bits t) (if remainder then Z.rem x y else Z.quot x y)).

(** emit_x64.c 2122-2172, 4342-4364, 4596-4620.  The processor masks shift amounts to 5 bits, to
    6 for 64-bit operands (FieldModel). *)
Definition shift (left : bool) (t : ity) (a count : Z) : Z :=
  let k := amount (bits t) (wrapu 8 count) in
  if left then wrapu (bits t) (a * 2 ^ k) else wrapu (bits t) (number t a / 2 ^ k).

(** [e1] is below [e2] on the stack. *)
Definition binary (n : Z) (f : Z -> Z -> result operand) (s : list operand) (m : memory) : result (list operand * memory) :=
  match s with
  | b :: a :: s => rbind (fetch m n a) (fun x => rbind (fetch m n b) (fun y => rbind (f x y) (fun c => Next (c :: s, m))))
  | _ => Stuck
  end.

Definition unary (n : Z) (f : Z -> operand) (s : list operand) (m : memory) : result (list operand * memory) :=
  match s with
  | a :: s => rbind (fetch m n a) (fun x => Next (f x :: s, m))
  | _ => Stuck
  end.

(** Compound assignments change the variable in place; the result is its location. *)
Definition assignment (n : Z) (f : Z -> Z -> result Z) (s : list operand) (m : memory) : result (list operand * memory) :=
  match s with
  | b :: Location x :: s =>
      rbind (fetch m n (Location x)) (fun u => rbind (fetch m n b) (fun v => rbind (f u v) (fun w =>
        Next (Location x :: s, update m x w))))
  | _ => Stuck
  end.

(** Shifts: the amount is the low byte of an operand of any size (CL or imm8). *)
Definition shift_assignment (left : bool) (t : ity) (s : list operand) (m : memory) : result (list operand * memory) :=
  match s with
  | b :: Location x :: s =>
      rbind (fetch m (bits t) (Location x)) (fun u =>
        Next (Location x :: s, update m x (shift left t u (contents m b))))
  | _ => Stuck
  end.

(** emit_x64.c 3912-4136, ir.h 90-135: the prefix forms leave the new value, the postfix forms the old one. *)
Definition step_variable (post : bool) (n : Z) (f : Z -> Z) (s : list operand) (m : memory) : result (list operand * memory) :=
  match s with
  | Location x :: s =>
      rbind (fetch m n (Location x)) (fun u =>
        Next (Value n (if post then u else f u) :: s, update m x (f u)))
  | _ => Stuck
  end.

(** emit_x64.c 4046-4067: ADD and SUB with an immediate of 8 or 32 bits, which the processor sign extends; the
    size is asserted to fit 32 bits. *)
Definition pointer_step (size : Z) : result Z :=
  if (0 <=? size) && (size <=? 4294967295)
  then Next (if size >? 127 then wraps 32 size else wraps 8 size)
  else Stuck.

(** emit_x64.c 3841-3909: the result of a comparison as an int. *)
Definition truth (b : bool) : operand := Value 32 (if b then 1 else 0).

Definition step (i : ir) (s : list operand) (m : memory) : result (list operand * memory) :=
  match i with
  | Integer_literal l => Next (Immediate (bits (lty l)) (integer_literal_as_u64 l) :: s, m)
  | Identifier x => Next (Location x :: s, m)
  | Cast false c =>
      match s with a :: s => rbind (cast_word c m a) (fun a => Next (a :: s, m)) | _ => Stuck end
  | Cast true c =>
      match s with b :: a :: s => rbind (cast_word c m a) (fun a => Next (b :: a :: s, m)) | _ => Stuck end
  | Load_bitfield false b =>
      match s with
      | a :: s => rbind (fetch m (bits (base_type b)) a) (fun w =>
          let '(n, v) := emit_load_bitfield b w in Next (Value n (wrapu n v) :: s, m))
      | _ => Stuck
      end
  | Load_bitfield true b =>
      match s with
      | c :: a :: s => rbind (fetch m (bits (base_type b)) a) (fun w =>
          let '(n, v) := emit_load_bitfield b w in Next (c :: Value n (wrapu n v) :: s, m))
      | _ => Stuck
      end
  | Bitwise_not n => unary n (fun x => Value n (wrapu n (Z.lnot x))) s m
  | Negate n => unary n (fun x => Value n (wrapu n (- x))) s m
  | Logical_not n => unary n (fun x => truth (x =? 0)) s m
  | Add n => binary n (fun x y => Next (Value n (wrapu n (x + y)))) s m
  | Subtract n => binary n (fun x y => Next (Value n (wrapu n (x - y)))) s m
  | Multiply t => binary (bits t) (fun x y => Next (Value (bits t) (wrapu (bits t) (number t x * number t y)))) s m
  | Divide t => binary (bits t) (fun x y => rbind (divide false t x y) (fun w => Next (Value (bits t) w))) s m
  | Modulo t => binary (bits t) (fun x y => rbind (divide true t x y) (fun w => Next (Value (bits t) w))) s m
  | And n => binary n (fun x y => Next (Value n (Z.land x y))) s m
  | Or n => binary n (fun x y => Next (Value n (Z.lor x y))) s m
  | Xor n => binary n (fun x y => Next (Value n (Z.lxor x y))) s m
  | Left_shift t =>
      match s with
      | b :: a :: s => rbind (fetch m (bits t) a) (fun x => Next (Value (bits t) (shift true t x (contents m b)) :: s, m))
      | _ => Stuck
      end
  | Right_shift t =>
      match s with
      | b :: a :: s => rbind (fetch m (bits t) a) (fun x => Next (Value (bits t) (shift false t x (contents m b)) :: s, m))
      | _ => Stuck
      end
  | Bigger_equals t => binary (bits t) (fun x y => Next (truth (number t y <=? number t x))) s m
  | Smaller_equals t => binary (bits t) (fun x y => Next (truth (number t x <=? number t y))) s m
  | Bigger t => binary (bits t) (fun x y => Next (truth (number t y <? number t x))) s m
  | Smaller t => binary (bits t) (fun x y => Next (truth (number t x <? number t y))) s m
  | Equals n => binary n (fun x y => Next (truth (x =? y))) s m
  | Unequals n => binary n (fun x y => Next (truth (negb (x =? y)))) s m
  | Add_assignment n => assignment n (fun x y => Next (wrapu n (x + y))) s m
  | Subtract_assignment n => assignment n (fun x y => Next (wrapu n (x - y))) s m
  | And_assignment n => assignment n (fun x y => Next (Z.land x y)) s m
  | Or_assignment n => assignment n (fun x y => Next (Z.lor x y)) s m
  | Xor_assignment n => assignment n (fun x y => Next (Z.lxor x y)) s m
  | Multiply_assignment t => assignment (bits t) (fun x y => Next (wrapu (bits t) (number t x * number t y))) s m
  | Divide_assignment t => assignment (bits t) (divide false t) s m
  | Modulo_assignment t => assignment (bits t) (divide true t) s m
  | Left_shift_assignment t => shift_assignment true t s m
  | Right_shift_assignment t => shift_assignment false t s m
  | Increment post n => step_variable post n (fun u => wrapu n (u + 1)) s m
  | Decrement post n => step_variable post n (fun u => wrapu n (u - 1)) s m
  | Increment_bool post => step_variable post 8 (fun u => 1) s m
  | Decrement_bool post => step_variable post 8 (fun u => Z.lxor u 1) s m
  | Increment_pointer post size =>
      rbind (pointer_step size) (fun k => step_variable post 64 (fun u => wrapu 64 (u + k)) s m)
  | Decrement_pointer post size =>
      rbind (pointer_step size) (fun k => step_variable post 64 (fun u => wrapu 64 (u - k)) s m)
  | Store =>
      match s with
      | b :: Location x :: s => rbind (fetch m (var_bits x) b) (fun v => Next (Value (var_bits x) v :: s, update m x v))
      | _ => Stuck
      end
  | Store_bitfield f =>
      match s with
      | b :: Location x :: s =>
          rbind (fetch m (bits (base_type f)) (Location x)) (fun u => rbind (fetch m (bits (base_type f)) b) (fun v =>
            Next (Location x :: s, update m x (emit_store_bitfield f u v))))
      | _ => Stuck
      end
  | Duplicate_lhs => match s with b :: a :: s => Next (b :: a :: a :: s, m) | _ => Stuck end
  | Swap_lhs_rhs => match s with b :: a :: s => Next (a :: b :: s, m) | _ => Stuck end
  | Pop_expression => match s with _ :: s => Next (s, m) | _ => Stuck end
  | Nop => Next (s, m)
  | Pointer_subscript size =>
      if wraps 32 size =? size
      then binary 64 (fun x y => Next (Value 64 (wrapu 64 (x + wraps 64 y * size)))) s m
      else Stuck
  | Jump_label _ | Jump _ | Jump_if _ _ => Stuck      (* BranchModel.v *)
  end.

Fixpoint exec (c : list ir) (s : list operand) (m : memory) : result (list operand * memory) :=
  match c with
  | [] => Next (s, m)
  | i :: c => rbind (step i s m) (fun r => exec c (fst r) (snd r))
  end.
End Machine.

(* ------------------------------------------------------------------ *)
(** ** Code generation *)

(** parse.c [struct expr] with the code generated for it.  A literal's instruction is changed in place by
    casts and folding even after other code was generated behind it, so it is kept apart:
    [literal e = Some l] means the code of [e] is the instruction of [l]. *)
Record expr : Set := mkexpr { code : list ir; resolved_type : ity; literal : option lit }.

Definition emit (e : expr) : list ir :=
  match literal e with Some l => [Integer_literal l] | None => code e end.

Definition literal_expr (l : lit) : expr := mkexpr [] (lty l) (Some l).

(** parse.c 488-603: the table [ir_kind_for_cast]; pairs that are not in it need no
    instruction. *)
Definition ir_kind_for_cast (what to : ity) : option cast_op :=
  match what, to with
  | S8, S16 => Some (Sign_extend 8 16)
  | S8, S32 => Some (Sign_extend 8 32)
  | S16, S32 => Some (Sign_extend 16 32)
  | S8, S64 => Some (Sign_extend 8 64)
  | S16, S64 => Some (Sign_extend 16 64)
  | S32, S64 => Some (Sign_extend 32 64)
  | S8, U16 => Some (Sign_extend 8 16)
  | S8, U32 => Some (Sign_extend 8 32)
  | S16, U32 => Some (Sign_extend 16 32)
  | S8, U64 => Some (Sign_extend 8 64)
  | S16, U64 => Some (Sign_extend 16 64)
  | S32, U64 => Some (Sign_extend 32 64)
  | U8, S16 => Some (Zero_extend 8 16)
  | U8, S32 => Some (Zero_extend 8 32)
  | U16, S32 => Some (Zero_extend 16 32)
  | U8, S64 => Some (Zero_extend 8 64)
  | U16, S64 => Some (Zero_extend 16 64)
  | U32, S64 => Some (Zero_extend 32 64)
  | U8, U16 => Some (Zero_extend 8 16)
  | U8, U32 => Some (Zero_extend 8 32)
  | U16, U32 => Some (Zero_extend 16 32)
  | U8, U64 => Some (Zero_extend 8 64)
  | U16, U64 => Some (Zero_extend 16 64)
  | U32, U64 => Some (Zero_extend 32 64)
  | U16, U8 | U16, S8 | S16, U8 | S16, S8 => Some (Truncate_to 8)
  | U32, U8 | U32, S8 | S32, U8 | S32, S8 => Some (Truncate_to 8)
  | U64, U8 | U64, S8 | S64, U8 | S64, S8 => Some (Truncate_to 8)
  | U32, U16 | U32, S16 | S32, U16 | S32, S16 => Some (Truncate_to 16)
  | U64, U16 | U64, S16 | S64, U16 | S64, S16 => Some (Truncate_to 16)
  | U64, U32 | U64, S32 | S64, U32 | S64, S32 => Some (Truncate_to 32)
  | _, _ => None
  end.

(** parse.c 474-486, 588-602: the instruction pushed for a cast of something that is no literal. *)
Definition cast_code (lhs : bool) (what to : ity) : list ir :=
  let what := match what with TBool => U8 | _ => what end in
  match to with
  | TBool => [Cast lhs Cast_to_bool]
  | _ => match ir_kind_for_cast what to with Some c => [Cast lhs c] | None => [] end
  end.

(** parse.c 294-617 [push_cast]: the new expression and the instructions pushed.  The caller
    has to place them: they come behind all code generated so far. *)
Definition push_cast_expr (lhs : bool) (t : ity) (e : expr) : expr * list ir :=
  if ity_eqb (resolved_type e) t then (e, [])
  else match literal e with
       | Some l => (mkexpr [] t (Some (push_cast t l)), [])
       | None => (mkexpr (code e) t None, cast_code lhs (resolved_type e) t)
       end.

(** A cast of the expression at the end of the code. *)
Definition cast_expr (t : ity) (e : expr) : expr :=
  let '(e, c) := push_cast_expr false t e in
  mkexpr (code e ++ c) (resolved_type e) (literal e).

(** parse.c 685 [maybe_insert_integer_promotion_cast] *)
Definition promotion_cast (e : expr) : expr := cast_expr (perform_integer_promotions (resolved_type e)) e.

(** ir.h 2-39: the order of the types, which the parser uses to compute instruction kinds. *)
Definition ir_type (t : ity) : Z :=
  match t with
  | TBool => 1 | S8 => 2 | U8 => 3 | S16 => 4 | U16 => 5 | S32 => 6 | U32 => 7 | S64 => 8 | U64 => 9
  end.

(** [base + ((ir_type - IR_TYPE_s32) >> 1)] for instructions that come as u32, u64. *)
Definition kind_u32 (t : ity) : Z :=
  match (ir_type t - ir_type S32) / 2 with 0 => 32 | 1 => 64 | _ => 0 end.
(** [base + ((ir_type - IR_TYPE_s8) >> 1)] for instructions that come as u8, u16, u32, u64. *)
Definition kind_u8 (t : ity) : Z :=
  match (ir_type t - ir_type S8) / 2 with 0 => 8 | 1 => 16 | 2 => 32 | 3 => 64 | _ => 0 end.

(** parse.c 741-764 [maybe_insert_arithmetic_conversion_casts] followed by an instruction for
    the common type: lhs code, rhs code, lhs cast, rhs cast, instruction. *)
Definition converted (op : ity -> ir) (result_type : ity -> ity) (a b : expr) : outcome expr :=
  match usual_conversions_int (resolved_type a) (resolved_type b) with
  | None => Crash
  | Some t =>
      let '(a, ca) := push_cast_expr true t a in
      let '(b, cb) := push_cast_expr false t b in
      Done (mkexpr (emit a ++ emit b ++ ca ++ cb ++ [op t]) (result_type t) None)
  end.

(** parse.c 6034-6159: the instruction for a binary + - * / %. *)
Definition arith_kind (o : arith_op) (t : ity) : ir :=
  match o with
  | OAdd => Add (kind_u32 t)
  | OSub => Subtract (kind_u32 t)
  | OMul => Multiply t
  | ODiv => Divide t
  | OMod => Modulo t
  end.
Definition lower_arith (o : arith_op) (a b : expr) : outcome expr :=
  match literal a, literal b with
  | Some l, Some r => obind (fold_arith o l r) (fun q => Done (literal_expr q))
  | _, _ => converted (arith_kind o) (fun t => t) a b
  end.

(** parse.c 6265-6402: comparisons; the result has type int. *)
Definition cmp_kind (o : cmp_op) (t : ity) : ir :=
  match o with
  | OGe => Bigger_equals t
  | OLe => Smaller_equals t
  | OGt => Bigger t
  | OLt => Smaller t
  | OEq => Equals (if size t =? 8 then 64 else 32)
  | ONe => Unequals (if size t =? 8 then 64 else 32)
  end.
Definition lower_cmp (o : cmp_op) (a b : expr) : outcome expr :=
  match literal a, literal b with
  | Some l, Some r => obind (fold_cmp o l r) (fun q => Done (literal_expr q))
  | _, _ => converted (cmp_kind o) (fun _ => S32) a b
  end.

(** parse.c 6412-6450, 6459-6497, 6507-6545: & ^ |. *)
Definition bit_kind (o : bit_op) (t : ity) : ir :=
  match o with
  | OAnd => And (if size t =? 4 then 32 else 64)
  | OXor => Xor (if size t =? 4 then 32 else 64)
  | OOr => Or (if size t =? 4 then 32 else 64)
  end.
Definition lower_bit (o : bit_op) (a b : expr) : outcome expr :=
  match literal a, literal b with
  | Some l, Some r => obind (fold_bit o l r) (fun q => Done (literal_expr q))
  | _, _ => converted (bit_kind o) (fun t => t) a b
  end.

(** parse.c 6166-6256: shifts.  Both operands are promoted, the amount is checked if it is a
    literal, then cast to u8. *)
Definition lower_shift (left : bool) (a b : expr) : outcome expr :=
  match literal a, literal b with
  | Some l, Some r => obind (fold_shift left l r) (fun q => Done (literal_expr q))
  | _, _ =>
      let '(a, ca) := push_cast_expr true (perform_integer_promotions (resolved_type a)) a in
      let '(b, cb) := push_cast_expr false (perform_integer_promotions (resolved_type b)) b in
      let bad := match literal b with
                 | Some r => (type_is_signed (resolved_type b) && (read_lit r <? 0))
                             || (integer_literal_as_u64 r >? size (resolved_type a) * 8)
                 | None => false
                 end in
      if bad then Reported
      else
        let '(b, cb8) := push_cast_expr false U8 b in
        let t := resolved_type a in
        Done (mkexpr (emit a ++ emit b ++ ca ++ cb ++ cb8 ++ [if left then Left_shift t else Right_shift t]) t None)
  end.

(** parse.c 5763-5895: unary ~ ! + -. *)
Definition lower_un (o : un_op) (a : expr) : outcome expr :=
  match literal a with
  | Some l => obind (fold_un o l) (fun q => Done (literal_expr q))
  | None =>
      let a := promotion_cast a in
      let t := resolved_type a in
      match o with
      | OCompl => Done (mkexpr (code a ++ [Bitwise_not (if size t =? 4 then 32 else 64)]) t None)
      | OLNot => Done (mkexpr (code a ++ [Logical_not (if size t =? 4 then 32 else 64)]) S32 None)
      | OPlus => Done a
      | ONeg => Done (mkexpr (code a ++ [Negate (if size t =? 4 then 32 else 64)]) t None)
      end
  end.

(** The code of an expression.  parse.c 7248-7255, 7518-7530: the comma operator. *)
Fixpoint lower (ty : nat -> ity) (e : vexpr) : outcome expr :=
  match e with
  | VLit t p => Done (literal_expr (mklit t p))
  | VVar x => Done (mkexpr [Identifier x] (ty x) None)
  | VUn o a => obind (lower ty a) (lower_un o)
  | VCast t a => obind (lower ty a) (fun a => Done (cast_expr t a))
  | VArith o a b => obind (lower ty a) (fun a => obind (lower ty b) (lower_arith o a))
  | VCmp o a b => obind (lower ty a) (fun a => obind (lower ty b) (lower_cmp o a))
  | VBit o a b => obind (lower ty a) (fun a => obind (lower ty b) (lower_bit o a))
  | VShl a b => obind (lower ty a) (fun a => obind (lower ty b) (lower_shift true a))
  | VShr a b => obind (lower ty a) (fun a => obind (lower ty b) (lower_shift false a))
  | VComma a b =>
      obind (lower ty a) (fun a => obind (lower ty b) (fun b =>
        Done (mkexpr (emit a ++ [Pop_expression] ++ emit b ++ [Nop]) (resolved_type b) None)))
  end.

(** parse.c 6946-6981: [x = e]; the cast is that of 1872-2010. *)
Definition lower_assignment (ty : nat -> ity) (x : nat) (e : expr) : list ir :=
  [Identifier x] ++ emit (cast_expr (ty x) e) ++ [Store].

(** parse.c 4099-4133: the instruction of a punted compound assignment.  Shifts too are
    done in the common type of both operands. *)
Definition punt_kind (k : compound_op) (t : ity) : ir :=
  match k with
  | KArith OAdd => Add (kind_u32 t)
  | KArith OSub => Subtract (kind_u32 t)
  | KBit OAnd => And (kind_u32 t)
  | KBit OOr => Or (kind_u32 t)
  | KBit OXor => Xor (kind_u32 t)
  | KArith OMod => Modulo t
  | KArith ODiv => Divide t
  | KArith OMul => Multiply t
  | KShl => Left_shift t
  | KShr => Right_shift t
  end.

(** parse.c 4080-4155 [punt_compound_assignment].  [load]: what
    [maybe_insert_cast_from_special_int_to_int] pushes for a bit-field; [what]: the type of the
    duplicate after it; [to]: the type the result is cast to; [store]: the last instruction. *)
Definition punt_compound_assignment (k : compound_op) (x : nat) (load : list ir) (what to : ity) (store : ir) (rhs : expr) : outcome (list ir) :=
  match usual_conversions_int what (resolved_type rhs) with
  | None => Crash
  | Some t =>
      let '(_, cl) := push_cast_expr true t (mkexpr [] what None) in
      let '(rhs, cr) := push_cast_expr false t rhs in
      let '(_, ct) := push_cast_expr false to (mkexpr [] t None) in
      Done ([Identifier x] ++ emit rhs ++ [Duplicate_lhs] ++ load ++ cl ++ cr ++ [punt_kind k t] ++ ct ++ [store])
  end.

(** parse.c 7076-7096, 7172-7197: when * / % leave the fast path. *)
Definition must_punt (lhs_size : Z) (rhs : expr) : bool :=
  let punt := lhs_size <? size (resolved_type rhs) in
  match literal rhs with
  | Some r => if integer_literal_as_u64 r <? 2 ^ lhs_size then false else punt
  | None => punt
  end.

Definition literal_zero (rhs : expr) : bool :=
  match literal rhs with Some r => integer_literal_as_u64 r =? 0 | None => false end.

(** parse.c 6997-7246: compound assignments to a variable that is no bit-field. *)
Definition lower_compound (ty : nat -> ity) (k : compound_op) (x : nat) (rhs : expr) : outcome (list ir) :=
  let t := ty x in
  let punt := punt_compound_assignment k x [] t t Store rhs in
  let is_bool := ity_eqb t TBool in
  let direct op := Done ([Identifier x] ++ emit (cast_expr t rhs) ++ [op]) in
  match k with
  | KArith OAdd => if is_bool then punt else direct (Add_assignment (kind_u8 t))
  | KArith OSub => if is_bool then punt else direct (Subtract_assignment (kind_u8 t))
  | KBit OAnd => if is_bool then punt else direct (And_assignment (kind_u8 t))
  | KBit OOr => if is_bool then punt else direct (Or_assignment (kind_u8 t))
  | KBit OXor => if is_bool then punt else direct (Xor_assignment (kind_u8 t))
  | KArith OMod =>
      if literal_zero rhs then Reported
      else if is_bool || must_punt (size t) rhs then punt else direct (Modulo_assignment t)
  | KArith ODiv =>
      if literal_zero rhs then Reported
      else if is_bool || must_punt (size t) rhs then punt else direct (Divide_assignment t)
  | KArith OMul =>
      if is_bool || must_punt (size t) rhs then punt else direct (Multiply_assignment t)
  | KShl => if is_bool then punt
            else Done ([Identifier x] ++ emit (cast_expr U8 rhs) ++ [Left_shift_assignment t])
  | KShr => if is_bool then punt
            else Done ([Identifier x] ++ emit (cast_expr U8 rhs) ++ [Right_shift_assignment t])
  end.

(** The same for a bit-field: all operators punt.  Lines 7083, 7181: division by a literal 0 is an
    error. *)
Definition lower_bitfield_compound (k : compound_op) (x : nat) (b : bitfield) (rhs : expr) : outcome (list ir) :=
  let punt := punt_compound_assignment k x [Load_bitfield true b]
                (bitfield_operand_type (base_type b) (field_width b)) (base_type b) (Store_bitfield b) rhs in
  match k with
  | KArith OMod | KArith ODiv => if literal_zero rhs then Reported else punt
  | _ => punt
  end.

(** parse.c 5038-5157, 5569-5686: ++ and --. *)
Definition lower_step (ty : nat -> ity) (post increment : bool) (x : nat) : list ir :=
  [Identifier x;
   match ty x with
   | TBool => if increment then Increment_bool post else Decrement_bool post
   | S8 | U8 => if increment then Increment post 8 else Decrement post 8
   | S16 | U16 => if increment then Increment post 16 else Decrement post 16
   | S32 | U32 => if increment then Increment post 32 else Decrement post 32
   | S64 | U64 => if increment then Increment post 64 else Decrement post 64
   end].

(* ------------------------------------------------------------------ *)
(** ** Pointers *)

(** An expression of pointer type; [address]: it is an [IR_pointer_literal]. *)
Record pointer : Set := mkpointer { pcode : list ir; address : option Z }.

Definition pemit (p : pointer) : list ir :=
  match address p with Some a => [Integer_literal (mklit U64 a)] | None => pcode p end.

(** parse.c 1776-1788: the literal is scaled in 64 bits and becomes a u64. *)
Definition scaled_literal (size : Z) (l : lit) : lit :=
  let v := wrapu 64 (integer_literal_as_s64 l) in
  mklit U64 (wrapu 64 (if type_is_signed (lty l) then wraps 64 v * size else v * size)).

(** parse.c 1794-1802: cast to s64, multiply. *)
Definition scale_code (size : Z) (e : expr) : list ir :=
  snd (push_cast_expr false S64 e) ++
  (if size =? 1 then [] else [Integer_literal (mklit S64 size); Multiply U64]).

(** parse.c 1732-1808 [handle_pointer_arithmetic]; [swapped]: the integer is on the left. *)
Definition handle_pointer_arithmetic (op : ir) (add : bool) (swapped : bool) (size : Z) (p : pointer) (e : expr) : pointer :=
  match literal e, address p with
  | Some l, Some a =>
      mkpointer [] (Some (wrapu 64 (if add then a + integer_literal_as_s64 l else a - integer_literal_as_s64 l)))
  | Some l, None =>
      let i := [Integer_literal (scaled_literal size l)] in
      mkpointer ((if swapped then i ++ pemit p else pemit p ++ i) ++ [op]) None
  | None, _ =>
      mkpointer ((if swapped then emit e ++ pemit p ++ [Swap_lhs_rhs] else pemit p ++ emit e) ++ scale_code size e ++ [op]) None
  end.

(** parse.c 1817-1871 [push_nodes_for_subscript] on a pointer, and the address of the element. *)
Definition push_nodes_for_subscript (size : Z) (p : pointer) (e : expr) : pointer :=
  let '(i, c) := push_cast_expr false S64 e in
  mkpointer (pemit p ++ emit i ++ c ++ [Pointer_subscript size]) None.

Fixpoint lower_pointer (size : Z) (ty : nat -> ity) (p : pexpr) : outcome pointer :=
  match p with
  | PVar x => Done (mkpointer [Identifier x] None)
  | PLit a => Done (mkpointer [] (Some (wrapu 64 a)))
  | PAdd p e => obind (lower_pointer size ty p) (fun p => obind (lower ty e) (fun e =>
                  Done (handle_pointer_arithmetic (Add 64) true false size p e)))
  | PAddLeft e p => obind (lower_pointer size ty p) (fun p => obind (lower ty e) (fun e =>
                  Done (handle_pointer_arithmetic (Add 64) true true size p e)))
  | PSub p e => obind (lower_pointer size ty p) (fun p => obind (lower ty e) (fun e =>
                  Done (handle_pointer_arithmetic (Subtract 64) false false size p e)))
  | PIndex p e => obind (lower_pointer size ty p) (fun p => obind (lower ty e) (fun e =>
                  Done (push_nodes_for_subscript size p e)))
  end.

(** parse.c 7006-7016: [p += e], [p -= e]. *)
Definition lower_pointer_assignment (size : Z) (add : bool) (x : nat) (e : expr) : list ir :=
  pcode (handle_pointer_arithmetic (if add then Add_assignment 64 else Subtract_assignment 64) add false size
           (mkpointer [Identifier x] None) e).

(** parse.c 5046-5051, 5104-5109, 5573-5578, 5632-5637: ++ and -- on a pointer. *)
Definition lower_pointer_step (size : Z) (post increment : bool) (x : nat) : list ir :=
  [Identifier x; if increment then Increment_pointer post size else Decrement_pointer post size].

(** parse.c 6105-6126: [p - q]. *)
Definition lower_pointer_difference (size : Z) (p q : pointer) : list ir :=
  pemit p ++ pemit q ++ [Subtract 64] ++
  (if size =? 1 then [] else [Integer_literal (mklit S64 size); Divide U64]).
