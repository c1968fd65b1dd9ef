(** Model of [parse_expression], parse.c 4158-7544: how operands and operators are put together.  Types, conversions and
    the code that is generated are not modelled, the trees stand for them; whether '(' starts a cast is decided by the
    token after it being a type.  What is kept: the operator stack ('ast_stack', shared by nested calls and protected
    with a guard entry), the precedence tables, the flag 'in_lhs_expression' and the checks of it.  Compound literals,
    _Generic, casts to struct or union and the compiler specific calls are left out.  Asserts are compiled out, as in
    release builds (std.c 221). *)
From Verif Require Import Base ParseSyntax.

(** main.c 777-783, [struct ast_stack_entry]; for a conditional the operands before and after '?'. *)
Inductive entry :=
| Guard                                     (* AST_invalid *)
| Pending_prefix (p : prefix)
| Pending_cast (type : Z)
| Pending_binary (o : operator) (l : tree)
| Pending_conditional (c t : tree)
| Pending_assign (o : option operator) (l : tree)
| Pending_comma (l : tree).

(** parse.c 5421-5473; 0 is the value of tokens that are not listed. *)
Definition token_to_precedence (t : token) : Z :=
  match t with
  | T_times | T_slash | T_mod => 3
  | T_plus | T_minus => 4
  | T_left_shift | T_right_shift => 5
  | T_bigger_equals | T_smaller_equals | T_bigger | T_smaller => 6
  | T_logical_equals | T_logical_unequals => 7
  | T_and => 8
  | T_xor => 9
  | T_or => 10
  | T_logical_and => 11
  | T_logical_or => 12
  | T_question_mark => 13
  | T_equals | T_and_equals | T_or_equals | T_xor_equals | T_plus_equals | T_minus_equals | T_left_shift_equals
  | T_right_shift_equals | T_div_equals | T_mod_equals | T_times_equals => 14
  | T_comma => 15
  | _ => 0
  end.

(** parse.c 5479-5533. *)
Definition ast_to_precedence (e : entry) : Z :=
  match e with
  | Guard => 0
  | Pending_prefix _ | Pending_cast _ => 2
  | Pending_binary o _ =>
      match o with
      | Times | Divide | Modulo => 3
      | Plus | Minus => 4
      | LeftShift | RightShift => 5
      | BiggerEquals | SmallerEquals | Bigger | Smaller => 6
      | Equal | Unequal => 7
      | And => 8 | Xor => 9 | Or => 10 | LogicalAnd => 11 | LogicalOr => 12
      end
  | Pending_conditional _ _ => 13
  | Pending_assign _ _ => 14
  | Pending_comma _ => 15
  end.

(** parse.c 4191-4211 *)
Definition prefix_token (t : token) : option prefix :=
  match t with
  | T_increment => Some PreIncrement
  | T_decrement => Some PreDecrement
  | T_logical_not => Some LogicalNot
  | T_bitwise_not => Some BitwiseNot
  | T_times => Some Dereference
  | T_minus => Some Negate
  | T_plus => Some Promote
  | T_and => Some AddressOf
  | T_sizeof => Some Sizeof
  | T_alignof => Some Alignof
  | _ => None
  end.

(** parse.c 7264-7332 *)
Definition binary_token (t : token) : option operator :=
  match t with
  | T_times => Some Times
  | T_slash => Some Divide
  | T_mod => Some Modulo
  | T_plus => Some Plus
  | T_minus => Some Minus
  | T_left_shift => Some LeftShift
  | T_right_shift => Some RightShift
  | T_bigger_equals => Some BiggerEquals
  | T_smaller_equals => Some SmallerEquals
  | T_bigger => Some Bigger
  | T_smaller => Some Smaller
  | T_logical_equals => Some Equal
  | T_logical_unequals => Some Unequal
  | T_and => Some And
  | T_xor => Some Xor
  | T_or => Some Or
  | T_logical_and => Some LogicalAnd
  | T_logical_or => Some LogicalOr
  | _ => None
  end.

(** parse.c 7477-7512 *)
Definition assign_token (t : token) : option (option operator) :=
  match t with
  | T_equals => Some None
  | T_and_equals => Some (Some And)
  | T_or_equals => Some (Some Or)
  | T_xor_equals => Some (Some Xor)
  | T_plus_equals => Some (Some Plus)
  | T_minus_equals => Some (Some Minus)
  | T_left_shift_equals => Some (Some LeftShift)
  | T_right_shift_equals => Some (Some RightShift)
  | T_div_equals => Some (Some Divide)
  | T_mod_equals => Some (Some Modulo)
  | T_times_equals => Some (Some Times)
  | _ => None
  end.

(** parse.c 5542-5554: is the top of the stack left alone? *)
Definition keep (e : entry) (t : token) : bool :=
  match e with
  | Guard => true
  | _ =>
      ((ast_to_precedence e =? token_to_precedence t) && ((ast_to_precedence e =? 14) || (ast_to_precedence e =? 13)))
      || (negb (token_to_precedence t =? 0) && (ast_to_precedence e >? token_to_precedence t))
  end.

(** parse.c 5558-7258: finish the operator on top of the stack; with the new value of 'in_lhs_expression'. *)
Definition finish (e : entry) (operand : tree) (in_lhs : bool) : outcome (tree * bool) :=
  match e with
  | Guard => Crash
  | Pending_prefix ((PreIncrement | PreDecrement | AddressOf) as p) =>   (* 3050, 5948 *)
      if in_lhs then Done (Prefix p operand, false) else Reported
  | Pending_prefix Dereference => Done (Prefix Dereference operand, true)
  | Pending_prefix p => Done (Prefix p operand, false)
  | Pending_cast type => Done (Cast type operand, false)
  | Pending_binary o l => Done (Binary o l operand, false)
  | Pending_conditional c t => Done (Conditional c t operand, false)
  | Pending_assign o l => Done (Assign o l operand, false)
  | Pending_comma l => Done (Comma l operand, false)
  end.

(** The local variables of one call: 'should_skip_comma_expression' and 'did_push'. *)
Record locals := { should_skip_comma : bool; did_push : bool }.

(** Where the call is. *)
Inductive state :=
| Restart (c : locals) (stack : list entry) (tokens : list token)                                     (* 4177 *)
| Postfix (c : locals) (stack : list entry) (operand : tree) (in_lhs : bool) (tokens : list token)    (* 5034 *)
| Arguments (c : locals) (stack : list entry) (f : tree) (arguments : list tree) (tokens : list token) (* 5305 *)
| Operator (c : locals) (stack : list entry) (operand : tree) (in_lhs : bool) (tokens : list token)   (* 5478 *)
| Switch (c : locals) (stack : list entry) (operand : tree) (in_lhs : bool) (tokens : list token).    (* 7264 *)

(** What a call returns: the operand, the flag, the tokens and the stack left. *)
Definition result : Type := tree * bool * list token * list entry.

Section Machine.
(** The size of 'ast_stack', 1024 (main.c 783). *)
Variable limit : nat.

(** parse.c 1386-1404 [ast_stack_push] *)
Definition push (stack : list entry) (e : entry) (k : list entry -> outcome result) : outcome result :=
  if (limit <? length stack + 1)%nat then Reported else k (e :: stack).

(** parse.c 4168-4175: the start of a call.  No guard is pushed to a full stack. *)
Definition start (skip : bool) (stack : list entry) (tokens : list token) : state :=
  match stack with
  | [] => Restart {| should_skip_comma := skip; did_push := false |} stack tokens
  | _ => if (length stack <? limit)%nat
         then Restart {| should_skip_comma := skip; did_push := true |} (Guard :: stack) tokens
         else Restart {| should_skip_comma := skip; did_push := false |} stack tokens
  end.

(** parse.c 7534-7543: the end of a call; the guard is removed. *)
Definition leave (c : locals) (stack : list entry) (operand : tree) (in_lhs : bool) (tokens : list token) : outcome result :=
  if did_push c
  then match stack with [] => Crash | _ :: stack => Done (operand, in_lhs, tokens, stack) end
  else Done (operand, in_lhs, tokens, stack).

Fixpoint run (fuel : nat) (s : state) : outcome result :=
  match fuel with
  | O => Crash
  | S fuel =>
    match s with
    | Restart c stack tokens =>
        match tokens with
        | [] => Reported
        | t :: rest =>
            match prefix_token t with
            | Some p => push stack (Pending_prefix p) (fun stack => run fuel (Restart c stack rest))
            | None =>
                match t with
                | T_open_paren =>
                    match rest with
                    | T_type type :: rest =>
                        match rest with
                        | T_closed_paren :: rest =>
                            match stack with
                            | Pending_prefix ((Sizeof | Alignof) as p) :: stack =>
                                run fuel (Postfix c stack (TypeOperand p type) false rest)
                            | _ => push stack (Pending_cast type) (fun stack => run fuel (Restart c stack rest))
                            end
                        | _ => Reported
                        end
                    | _ =>
                        obind (run fuel (start false stack rest)) (fun '(operand, in_lhs, rest, stack) =>
                        match rest with
                        | T_closed_paren :: rest => run fuel (Postfix c stack operand in_lhs rest)
                        | _ => Reported
                        end)
                    end
                | T_identifier n => run fuel (Postfix c stack (Name n) true rest)
                | T_constant n => run fuel (Postfix c stack (Constant n) false rest)
                | _ => Reported
                end
            end
        end
    | Postfix c stack operand in_lhs tokens =>
        match tokens with
        | T_increment :: rest => if in_lhs then run fuel (Postfix c stack (PostIncrement operand) false rest) else Reported
        | T_decrement :: rest => if in_lhs then run fuel (Postfix c stack (PostDecrement operand) false rest) else Reported
        | T_open_index :: rest =>
            obind (run fuel (start false stack rest)) (fun '(index, _, rest, stack) =>
            match rest with
            | T_closed_index :: rest => run fuel (Postfix c stack (Subscript operand index) true rest)
            | _ => Reported
            end)
        | T_dot :: T_identifier n :: rest => run fuel (Postfix c stack (Dot operand n) in_lhs rest)
        | T_arrow :: T_identifier n :: rest => run fuel (Postfix c stack (Arrow operand n) true rest)
        | T_dot :: _ | T_arrow :: _ => Reported
        | T_open_paren :: T_closed_paren :: rest => run fuel (Postfix c stack (Call operand []) false rest)
        | T_open_paren :: rest => run fuel (Arguments c stack operand [] rest)
        | _ => run fuel (Operator c stack operand in_lhs tokens)
        end
    | Arguments c stack f arguments tokens =>
        obind (run fuel (start true stack tokens)) (fun '(argument, _, rest, stack) =>
        let arguments := arguments ++ [argument] in
        match rest with
        | T_comma :: T_closed_paren :: rest | T_closed_paren :: rest =>
            run fuel (Postfix c stack (Call f arguments) false rest)
        | T_comma :: rest => run fuel (Arguments c stack f arguments rest)
        | _ => Reported
        end)
    | Operator c stack operand in_lhs tokens =>
        match tokens with
        | [] => Reported
        | t :: rest =>
            match stack with
            | e :: stack' =>
                if keep e t then run fuel (Switch c stack operand in_lhs tokens)
                else obind (finish e operand in_lhs) (fun '(operand, in_lhs) =>
                     run fuel (Operator c stack' operand in_lhs tokens))
            | [] => run fuel (Switch c stack operand in_lhs tokens)
            end
        end
    | Switch c stack operand in_lhs tokens =>
        match tokens with
        | [] => Reported
        | t :: rest =>
            match binary_token t with
            | Some o => push stack (Pending_binary o operand) (fun stack => run fuel (Restart c stack rest))
            | None =>
                match assign_token t with
                | Some o =>
                    if in_lhs then push stack (Pending_assign o operand) (fun stack => run fuel (Restart c stack rest))
                    else Reported
                | None =>
                    match t with
                    | T_question_mark =>
                        obind (run fuel (start false stack rest)) (fun '(if_true, _, rest, stack) =>
                        match rest with
                        | T_colon :: rest =>
                            push stack (Pending_conditional operand if_true) (fun stack => run fuel (Restart c stack rest))
                        | _ => Reported
                        end)
                    | T_comma =>
                        if should_skip_comma c then leave c stack operand in_lhs tokens
                        else push stack (Pending_comma operand) (fun stack => run fuel (Restart c stack rest))
                    | _ => leave c stack operand in_lhs tokens
                    end
                end
            end
        end
    end
  end.

(** A whole expression, with an empty stack. *)
Definition parse_expression (fuel : nat) (tokens : list token) : outcome (tree * list token) :=
  obind (run fuel (start false [] tokens)) (fun '(operand, _, rest, _) => Done (operand, rest)).
End Machine.
