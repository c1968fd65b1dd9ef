(** C46: when the compiler warns about a function that can reach its closing brace, or returns although it is
    declared [_Noreturn]: [context->current_statement_returns_a_value] in parse.c [parse_statement] and main.c
    [worker_parse_function].  Statements and their expressions as in StmtModel.v; calls (a call of a [_Noreturn] function
    sets the flag, parse.c 5384-5386) and inline assembly (main.c 3380) are not modelled. *)
From Coq Require Import List ZArith Bool.
From Verif Require Import Base IntTypes CSpec IntModel LowerSpec LowerModel BranchSpec BranchModel StmtSpec StmtModel.
Import ListNotations.
Open Scope Z_scope.

(** [current_statement_returns_a_value] (main.c 771); [SCOPE_FLAG_found_an_alive_break] of the innermost scope one can break out of
    (ast.c 643); whether [current_switch->default_jump_label] is set; whether [return] was reported in a [_Noreturn] function. *)
Record state : Set := mkstate { returns : bool; alive_break : bool; defaulted : bool; reported : bool }.
Definition with_returns (b : bool) (st : state) : state := mkstate b (alive_break st) (defaulted st) (reported st).
(** parser_push_new_scope with [SCOPE_FLAG_can_break]: a scope without an alive break. *)
Definition enter (st : state) : state := mkstate (returns st) false (defaulted st) (reported st).

Section Warn.
Variable first : nat.
Variable ty : nat -> ity.
Variable noreturn : bool.

(** parse.c 9219, 9274, 9334: the folded condition is an integer literal other than 0.  Simplification: the condition is
    generated with label numbers from 0, the numbers have no influence on folding. *)
Definition always (e : bexpr) : bool :=
  match generate first ty e (mkcounters 0 []) with
  | Done (q, _) => match literal q with Some l => negb (integer_literal_as_u64 l =? 0) | None => false end
  | _ => false
  end.

(** parse.c 9031-9602 [parse_statement]: the parts that keep the flags. *)
Fixpoint walk (s : stmt) (st : state) : state :=
  match s with
  | SSkip | SEffect _ => st
  | SSeq a b => walk b (walk a st)
  | SIf _ a => with_returns (returns st) (walk a st)                                               (* 9070, 9084-9085 *)
  | SIfElse _ a b =>                                                                               (* 9070-9106 *)
      let if_part := walk a st in
      let else_part := walk b (with_returns (returns st) if_part) in
      with_returns (returns st || (returns else_part && returns if_part)) else_part
  | SWhile e a =>                                                                                  (* 9259-9275 *)
      let body := walk a (enter st) in
      mkstate (returns st || (negb (alive_break body) && always e)) (alive_break st) (defaulted body) (reported body)
  | SDo a e =>                                                                                     (* 9306-9338 *)
      let body := walk a (enter st) in
      mkstate (returns body || (negb (alive_break body) && always e)) (alive_break st) (defaulted body) (reported body)
  | SFor c _ a =>                                                                                  (* 9120-9223; no condition: the literal 1 *)
      let body := walk a (enter st) in
      let e := match c with Some e => e | None => BLit S32 1 end in
      mkstate (returns st || (negb (alive_break body) && always e)) (alive_break st) (defaulted body) (reported body)
  | SBreak => if returns st then st else mkstate (returns st) true (defaulted st) (reported st)     (* 9357-9361 *)
  | SContinue => with_returns true st                                                              (* 9384 *)
  | SSwitch _ a =>                                                                                 (* 9418-9431 *)
      let body := walk a (mkstate (returns st) false false (reported st)) in
      mkstate (returns st || (returns body && defaulted body && negb (alive_break body))) (alive_break st) (defaulted st) (reported body)
  | SCase _ _ a => walk a (with_returns false st)                                                  (* 9450 *)
  | SDefault a => walk a (mkstate false (alive_break st) true (reported st))                       (* 9494-9508 *)
  | SReturn _ => mkstate true (alive_break st) (defaulted st) (reported st || noreturn)            (* 9537-9541 *)
  | SGoto _ => with_returns true st                                                                (* 9567 *)
  | SLabel _ a => walk a (with_returns false st)                                                   (* 9594 *)
  end.

(** main.c 2671, 3395, 3428-3452: whether there is a warning. *)
Definition warned (rt : option ity) (is_main : bool) (body : stmt) : bool :=
  let st := walk body (mkstate false false false false) in
  let returns_a_value := match is_main, rt with true, Some S32 => true | _, _ => returns st end in
  reported st || (negb returns_a_value && (noreturn || match rt with Some _ => true | None => false end)).
End Warn.
