(** The grammar of expressions of the C standard (6.5), without compound literals, generic selections and string
    literals.  [derives n tokens e d]: the nonterminal [n] derives the tokens with the tree [e]; [d] bounds how deep
    operands nest: an operand that is not leftmost is one deeper than what it belongs to. *)
From Verif Require Import Base ParseSyntax.

Inductive nonterminal := primary_ | postfix_ | unary_ | cast_ | multiplicative_ | additive_ | shift_ | relational_ | equality_
| and_ | exclusive_or_ | inclusive_or_ | logical_and_ | logical_or_ | conditional_ | assignment_ | expression_.

(** upper: lower  |  upper token lower *)
Inductive binary_rule : nonterminal -> nonterminal -> token -> operator -> Prop :=
| b_times : binary_rule multiplicative_ cast_ T_times Times
| b_slash : binary_rule multiplicative_ cast_ T_slash Divide
| b_mod : binary_rule multiplicative_ cast_ T_mod Modulo
| b_plus : binary_rule additive_ multiplicative_ T_plus Plus
| b_minus : binary_rule additive_ multiplicative_ T_minus Minus
| b_left_shift : binary_rule shift_ additive_ T_left_shift LeftShift
| b_right_shift : binary_rule shift_ additive_ T_right_shift RightShift
| b_smaller : binary_rule relational_ shift_ T_smaller Smaller
| b_bigger : binary_rule relational_ shift_ T_bigger Bigger
| b_smaller_equals : binary_rule relational_ shift_ T_smaller_equals SmallerEquals
| b_bigger_equals : binary_rule relational_ shift_ T_bigger_equals BiggerEquals
| b_equal : binary_rule equality_ relational_ T_logical_equals Equal
| b_unequal : binary_rule equality_ relational_ T_logical_unequals Unequal
| b_and : binary_rule and_ equality_ T_and And
| b_xor : binary_rule exclusive_or_ and_ T_xor Xor
| b_or : binary_rule inclusive_or_ exclusive_or_ T_or Or
| b_logical_and : binary_rule logical_and_ inclusive_or_ T_logical_and LogicalAnd
| b_logical_or : binary_rule logical_or_ logical_and_ T_logical_or LogicalOr.

Inductive assignment_rule : token -> option operator -> Prop :=
| a_simple : assignment_rule T_equals None
| a_times : assignment_rule T_times_equals (Some Times)
| a_div : assignment_rule T_div_equals (Some Divide)
| a_mod : assignment_rule T_mod_equals (Some Modulo)
| a_plus : assignment_rule T_plus_equals (Some Plus)
| a_minus : assignment_rule T_minus_equals (Some Minus)
| a_left : assignment_rule T_left_shift_equals (Some LeftShift)
| a_right : assignment_rule T_right_shift_equals (Some RightShift)
| a_and : assignment_rule T_and_equals (Some And)
| a_xor : assignment_rule T_xor_equals (Some Xor)
| a_or : assignment_rule T_or_equals (Some Or).

(** unary-expression: token unary-expression / token cast-expression *)
Inductive prefix_rule : token -> nonterminal -> prefix -> Prop :=
| p_increment : prefix_rule T_increment unary_ PreIncrement
| p_decrement : prefix_rule T_decrement unary_ PreDecrement
| p_sizeof : prefix_rule T_sizeof unary_ Sizeof
| p_alignof : prefix_rule T_alignof unary_ Alignof            (* an extension *)
| p_address : prefix_rule T_and cast_ AddressOf
| p_deref : prefix_rule T_times cast_ Dereference
| p_plus : prefix_rule T_plus cast_ Promote
| p_minus : prefix_rule T_minus cast_ Negate
| p_not : prefix_rule T_bitwise_not cast_ BitwiseNot
| p_lnot : prefix_rule T_logical_not cast_ LogicalNot.

(** upper: lower *)
Inductive unit_rule : nonterminal -> nonterminal -> Prop :=
| u_postfix : unit_rule postfix_ primary_
| u_unary : unit_rule unary_ postfix_
| u_cast : unit_rule cast_ unary_
| u_binary : forall n m t o, binary_rule n m t o -> unit_rule n m
| u_conditional : unit_rule conditional_ logical_or_
| u_assignment : unit_rule assignment_ conditional_
| u_expression : unit_rule expression_ assignment_.

Inductive derives : nonterminal -> list token -> tree -> nat -> Prop :=
| d_identifier : forall n, derives primary_ [T_identifier n] (Name n) 0
| d_constant : forall n, derives primary_ [T_constant n] (Constant n) 0
| d_parentheses : forall l e d, derives expression_ l e d ->
    derives primary_ (T_open_paren :: l ++ [T_closed_paren]) e (S d)
| d_subscript : forall l e d l' e' d', derives postfix_ l e d -> derives expression_ l' e' d' ->
    derives postfix_ (l ++ T_open_index :: l' ++ [T_closed_index]) (Subscript e e') (Nat.max d (S d'))
| d_call_none : forall l e d, derives postfix_ l e d ->
    derives postfix_ (l ++ [T_open_paren; T_closed_paren]) (Call e []) d
| d_call : forall l e d l' es d', derives postfix_ l e d -> derives_arguments l' es d' ->
    derives postfix_ (l ++ T_open_paren :: l' ++ [T_closed_paren]) (Call e es) (Nat.max d (S d'))
| d_dot : forall l e d n, derives postfix_ l e d -> derives postfix_ (l ++ [T_dot; T_identifier n]) (Dot e n) d
| d_arrow : forall l e d n, derives postfix_ l e d -> derives postfix_ (l ++ [T_arrow; T_identifier n]) (Arrow e n) d
| d_increment : forall l e d, derives postfix_ l e d -> derives postfix_ (l ++ [T_increment]) (PostIncrement e) d
| d_decrement : forall l e d, derives postfix_ l e d -> derives postfix_ (l ++ [T_decrement]) (PostDecrement e) d
| d_prefix : forall t n p l e d, prefix_rule t n p -> derives n l e d ->
    derives unary_ (t :: l) (Prefix p e) (S d)
| d_sizeof_type : forall n, derives unary_ [T_sizeof; T_open_paren; T_type n; T_closed_paren] (TypeOperand Sizeof n) 1
| d_alignof_type : forall n, derives unary_ [T_alignof; T_open_paren; T_type n; T_closed_paren] (TypeOperand Alignof n) 1
| d_cast : forall n l e d, derives cast_ l e d ->
    derives cast_ (T_open_paren :: T_type n :: T_closed_paren :: l) (Cast n e) (S d)
| d_binary : forall n m t o l e d l' e' d', binary_rule n m t o -> derives n l e d -> derives m l' e' d' ->
    derives n (l ++ t :: l') (Binary o e e') (Nat.max d (S d'))
| d_conditional : forall l e d l' e' d' l'' e'' d'',
    derives logical_or_ l e d -> derives expression_ l' e' d' -> derives conditional_ l'' e'' d'' ->
    derives conditional_ (l ++ T_question_mark :: l' ++ T_colon :: l'') (Conditional e e' e'') (Nat.max d (Nat.max (S d') (S d'')))
| d_assignment : forall t o l e d l' e' d', assignment_rule t o -> derives unary_ l e d -> derives assignment_ l' e' d' ->
    derives assignment_ (l ++ t :: l') (Assign o e e') (Nat.max d (S d'))
| d_comma : forall l e d l' e' d', derives expression_ l e d -> derives assignment_ l' e' d' ->
    derives expression_ (l ++ T_comma :: l') (Comma e e') (Nat.max d (S d'))
| d_unit : forall n m l e d, unit_rule n m -> derives m l e d -> derives n l e d
with derives_arguments : list token -> list tree -> nat -> Prop :=
| d_last : forall l e d, derives assignment_ l e d -> derives_arguments l [e] d
| d_more : forall l e d l' es d', derives assignment_ l e d -> derives_arguments l' es d' ->
    derives_arguments (l ++ T_comma :: l') (e :: es) (Nat.max d d').

(** The constraint of the language the parser checks itself: the operand of ++, --, & and the left side of an assignment
    designates an object. *)
Fixpoint designates (e : tree) : bool :=
  match e with
  | Name _ | Subscript _ _ | Arrow _ _ | Prefix Dereference _ => true
  | Dot e _ => designates e
  | _ => false
  end.
Fixpoint constraints (e : tree) : bool :=
  match e with
  | Name _ | Constant _ | TypeOperand _ _ => true
  | Prefix p e => constraints e && match p with PreIncrement | PreDecrement | AddressOf => designates e | _ => true end
  | Cast _ e | Dot e _ | Arrow e _ => constraints e
  | Binary _ l r | Comma l r | Subscript l r => constraints l && constraints r
  | Conditional c t f => constraints c && constraints t && constraints f
  | Assign _ l r => constraints l && designates l && constraints r
  | Call f es => constraints f && forallb constraints es
  | PostIncrement e | PostDecrement e => constraints e && designates e
  end.

(** Tokens after which an expression goes on. *)
Definition ends_expression (l : list token) : Prop :=
  match l with T_closed_paren :: _ | T_closed_index :: _ | T_colon :: _ | T_semicolon :: _ => True | _ => False end.
