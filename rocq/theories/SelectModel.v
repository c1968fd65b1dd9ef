(** From the intermediate code of an integer expression (LowerModel.v, numbers of bits) to the
    instructions of the code generator (EmitModel.v, numbers of bytes), and the code of a
    function whose body returns the expression.

    In /repo both sides are the same array of [struct ir]; the models differ in how they write
    the instruction kinds down.  [select] says which case of the switch of
    [emit_code_for_function__internal] handles an instruction and which parameters it derives
    from the kind.  [None]: no such kind exists (ir.h 44-490), or the instruction is not
    generated for expressions without side effects. *)
From Coq Require Import List ZArith Bool.
From Verif Require Import Base IntTypes IntModel LowerSpec LowerModel.
From Verif Require EmitModel.
Import ListNotations.
Open Scope Z_scope.

Section Select.
(** src/emit_x64.c 2626: [decl->offset_on_stack] of each variable; the sizes of the variables in bits. *)
Variable offset : nat -> Z.
Variable var_bits : nat -> Z.

(** ir.h 100-370: arithmetic exists for u32 and u64 (s32 and s64) only. *)
Definition for_word {A} (n : Z) (i : A) : option A :=
  if (n =? 32) || (n =? 64) then Some i else None.

(** ir.h 371-490: the pairs of sizes for which extensions exist. *)
Definition widening {A} (from to : Z) (i : A) : option A :=
  if existsb (fun p => (from =? fst p) && (to =? snd p)) [(8, 16); (8, 32); (8, 64); (16, 32); (16, 64); (32, 64)] then Some i else None.

(** src/emit_x64.c 3858-3873: [comp] for >= <= > < from the type; the signed conditions are four
    further on. *)
Definition comparison (signed unsigned : EmitModel.comp) (t : ity) : option EmitModel.ir :=
  for_word (bits t) (EmitModel.IR_compare (if type_is_signed t then signed else unsigned) (bits t / 8)).

(** src/emit_x64.c 2626 (identifiers), 2640 (literals), 2781-2904 and 3230-3244 (casts), 3704-3716 (stack), 3841-3907
    (comparisons), 4162-4240 (unary), 4258-4390 (binary operators), 4646 (no-op). *)
Definition select (i : ir) : option EmitModel.ir :=
  match i with
  | Integer_literal l => Some (EmitModel.IR_integer_literal (integer_literal_as_u64 l) (bits (lty l) / 8))
  | Identifier x => Some (EmitModel.IR_local (offset x) (var_bits x / 8))
  | Cast lhs Cast_to_bool => Some (EmitModel.IR_cast_to_bool lhs)
  | Cast lhs (Sign_extend from to) => widening from to (EmitModel.IR_sign_extend (from / 8) (to / 8) lhs)
  | Cast lhs (Zero_extend from to) => widening from to (EmitModel.IR_zero_extend (from / 8) (to / 8) lhs)
  | Cast lhs (Truncate_to n) => if existsb (Z.eqb n) [8; 16; 32] then Some (EmitModel.IR_truncate (n / 8) lhs) else None
  | Bitwise_not n => for_word n EmitModel.IR_bitwise_not
  | Negate n => for_word n EmitModel.IR_negate
  | Logical_not n => for_word n EmitModel.IR_logical_not
  | Add n => for_word n EmitModel.IR_add
  | Subtract n => for_word n EmitModel.IR_subtract
  | And n => for_word n EmitModel.IR_and
  | Or n => for_word n EmitModel.IR_or
  | Xor n => for_word n EmitModel.IR_xor
  | Multiply t => for_word (bits t) (EmitModel.IR_multiply (type_is_signed t))
  | Divide t => for_word (bits t) (EmitModel.IR_divide (type_is_signed t))
  | Modulo t => for_word (bits t) (EmitModel.IR_mod (type_is_signed t))
  | Left_shift t => for_word (bits t) (EmitModel.IR_left_shift (type_is_signed t))
  | Right_shift t => for_word (bits t) (EmitModel.IR_right_shift (type_is_signed t))
  | Bigger_equals t => comparison EmitModel.COMP_bigger_equals_signed EmitModel.COMP_bigger_equals t
  | Smaller_equals t => comparison EmitModel.COMP_smaller_equals_signed EmitModel.COMP_smaller_equals t
  | Bigger t => comparison EmitModel.COMP_bigger_signed EmitModel.COMP_bigger t
  | Smaller t => comparison EmitModel.COMP_smaller_signed EmitModel.COMP_smaller t
  | Equals n => for_word n (EmitModel.IR_compare EmitModel.COMP_equals (n / 8))
  | Unequals n => for_word n (EmitModel.IR_compare EmitModel.COMP_unequals (n / 8))
  | Swap_lhs_rhs => Some EmitModel.IR_swap_lhs_rhs
  | Pop_expression => Some EmitModel.IR_pop_expression
  | Nop => Some EmitModel.IR_nop
  | _ => None
  end.

Fixpoint select_all (is : list ir) : option (list EmitModel.ir) :=
  match is with
  | [] => Some []
  | i :: is => match select i, select_all is with Some j, Some js => Some (j :: js) | _, _ => None end
  end.
End Select.

(** src/parse.c 9543; src/emit_x64.c 4727-4760: the machine code of the body
    [return e;] of a function that returns the type of [e] (for another type T take [(T)e]), between the prolog and the epilog, and the number of
    bytes its temporaries take.  [stack_space]: the bytes taken by the declarations. *)
Definition compile_return (stack_space : Z) (offset : nat -> Z) (ty : nat -> ity) (e : vexpr) : outcome (list Z * Z) :=
  obind (lower ty e) (fun q =>
  match select_all offset (fun x => bits (ty x)) (emit q) with
  | Some is => EmitModel.emit_function stack_space (is ++ [EmitModel.IR_return])
  | None => Crash
  end).
