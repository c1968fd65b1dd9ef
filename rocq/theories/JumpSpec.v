(** Specification of conditions and jumps (C15). *)
From Verif Require Import Base EncModel EmitModel X64Decode X64Machine.

(** What a condition says of two [n]-bit operands [a] and [b] (unsigned numbers); the
    [_signed] conditions compare them as two's complement numbers.  [COMP_positive] and
    [COMP_negative] look at the sign of the [n]-bit difference. *)
Definition holds (c : comp) (n a b : Z) : bool :=
  match c with
  | COMP_none => true
  | COMP_equals => a =? b
  | COMP_unequals => negb (a =? b)
  | COMP_smaller => a <? b
  | COMP_smaller_equals => a <=? b
  | COMP_bigger => b <? a
  | COMP_bigger_equals => b <=? a
  | COMP_smaller_signed => wraps n a <? wraps n b
  | COMP_smaller_equals_signed => wraps n a <=? wraps n b
  | COMP_bigger_signed => wraps n b <? wraps n a
  | COMP_bigger_equals_signed => wraps n b <=? wraps n a
  | COMP_positive => negb (wraps n (a - b) <? 0)
  | COMP_negative => wraps n (a - b) <? 0
  end.

(** The flags the processor has after comparing [a] with [b]. *)
Definition compared (n a b : Z) (f : flags) : Prop :=
  0 < n /\ 0 <= a < 2 ^ n /\ 0 <= b < 2 ^ n /\ alu 7 n a b = Some (None, f).

(** The code generated for the IR instructions [pre], followed by [next], has [n] bytes. *)
Definition emitted_length (stack_space : Z) (pre : list ir) (next : option ir) (n : Z) : Prop :=
  exists stack s, emit_irs stack_space pre next [] initial = Done (stack, s) /\ Z.of_nat (length (code s)) = n.
