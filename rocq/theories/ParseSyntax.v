(** Tokens and trees of expressions.  A type name between parentheses is one token; identifiers, constants and type
    names carry a number. *)
From Verif Require Import Base.

Inductive token :=
| T_identifier (n : Z) | T_constant (n : Z) | T_type (n : Z)
| T_times | T_slash | T_mod | T_plus | T_minus | T_left_shift | T_right_shift
| T_bigger_equals | T_smaller_equals | T_bigger | T_smaller | T_logical_equals | T_logical_unequals
| T_and | T_xor | T_or | T_logical_and | T_logical_or | T_question_mark | T_colon
| T_equals | T_and_equals | T_or_equals | T_xor_equals | T_plus_equals | T_minus_equals | T_left_shift_equals
| T_right_shift_equals | T_div_equals | T_mod_equals | T_times_equals
| T_comma | T_increment | T_decrement | T_logical_not | T_bitwise_not | T_sizeof | T_alignof
| T_open_paren | T_closed_paren | T_open_index | T_closed_index | T_dot | T_arrow | T_semicolon.

Inductive prefix := PreIncrement | PreDecrement | LogicalNot | BitwiseNot | Dereference | Negate | Promote | AddressOf
| Sizeof | Alignof.
Inductive operator := Times | Divide | Modulo | Plus | Minus | LeftShift | RightShift | BiggerEquals | SmallerEquals
| Bigger | Smaller | Equal | Unequal | And | Xor | Or | LogicalAnd | LogicalOr.

Inductive tree :=
| Name (n : Z)
| Constant (n : Z)
| Prefix (p : prefix) (e : tree)
| TypeOperand (p : prefix) (type : Z)           (* sizeof (type), _Alignof (type) *)
| Cast (type : Z) (e : tree)
| Binary (o : operator) (l r : tree)
| Conditional (c t f : tree)
| Assign (o : option operator) (l r : tree)     (* [None]: simple assignment *)
| Comma (l r : tree)
| Subscript (a i : tree)
| Call (f : tree) (arguments : list tree)
| Dot (e : tree) (member : Z)
| Arrow (e : tree) (member : Z)
| PostIncrement (e : tree)
| PostDecrement (e : tree).
