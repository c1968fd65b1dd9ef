(** Conditional inclusion: the stack of [#if]s in the preprocessor's main loop. *)
From Verif Require Import Base.

(** The condition of an [#if] or [#elif]: its value, an error when it is evaluated, or
    nothing behind the directive's name. *)
Inductive condition : Type := Value (b : bool) | Faulty | Missing.
(** A source line, in the order the main loop meets them (the lines of an included file
    come in place of the [#include]).  [f] is the file a conditional directive stands in;
    the text of other lines and directives is opaque.  [Command] is any directive that is
    not conditional (ast.c 268-275 and unknown ones), [Null] a [#] alone on its line. *)
Inductive opener : Type := If (c : condition) | Ifdef (c : option bool).
Inductive line : Type :=
| Text (t : nat) | Command (d : nat) | Null | Opening (f : nat) (o : opener) | Elif (f : nat) (c : condition) | Else (f : nat) | Endif (f : nat).

(** preprocess.c 3397-3405 struct static_if_stack_node *)
Record node : Type := mknode { is_true : bool; is_else : bool; is_disabled_elif : bool; file : nat }.

(** What the lines do: tokens are emitted, commands are carried out. *)
Inductive effect : Type := Emit (t : nat) | Do (d : nat).

(** [skipping]: the loop at preprocess.c 4787-4810 is looking for the next directive;
    otherwise the loop at 3476-3638 is emitting tokens. *)
Record state : Type := mkstate { stack : list node; skipping : bool; effects : list effect }.

Definition disabled (st : list node) : bool := match st with [] => false | nd :: _ => negb (is_true nd) end.
(** preprocess.c 4780: behind a directive. *)
Definition behind (st : list node) (out : list effect) : state := mkstate st (disabled st) out.

(** preprocess.c 3554-3578: the value of a postponed condition. *)
Definition evaluate (c : condition) : outcome bool :=
  match c with Value b => Done b | _ => Reported end.

(** preprocess.c 3645-4812, one line. *)
Definition step (s : state) (l : line) : outcome state :=
  match l with
  | Text t => Done (if skipping s then s else mkstate (stack s) false (effects s ++ [Emit t]))
  | Null => Done (mkstate (stack s) false (effects s))                (* 3652-3655 *)
  | Command d =>                                                      (* 3670-3682 *)
      if disabled (stack s) then Done (mkstate (stack s) true (effects s))
      else Done (behind (stack s) (effects s ++ [Do d]))
  | Opening f (If c) =>                                               (* 3695-3734 *)
      match c with
      | Missing => Reported
      | _ =>
          if disabled (stack s) then Done (behind (mknode false false false f :: stack s) (effects s))
          else obind (evaluate c) (fun b => Done (behind (mknode b false false f :: stack s) (effects s)))
      end
  | Opening f (Ifdef c) =>                                            (* 3832-3854 *)
      match c with
      | None => Reported
      | Some b => Done (behind (mknode (if disabled (stack s) then false else b) false false f :: stack s) (effects s))
      end
  | Elif f c =>                                                       (* 3736-3831 *)
      match c with
      | Missing => Reported
      | _ =>
          match stack s with
          | [] => Reported
          | nd :: st =>
              if negb (Nat.eqb (file nd) f) then Reported
              else if is_else nd then Reported
              else if disabled st then Done (behind (mknode (is_true nd) (is_else nd) (is_disabled_elif nd) f :: st) (effects s))
              else if is_true nd || is_disabled_elif nd then Done (behind (mknode false (is_else nd) true f :: st) (effects s))
              else obind (evaluate c) (fun b => Done (behind (mknode b (is_else nd) (is_disabled_elif nd) f :: st) (effects s)))
          end
      end
  | Else f =>                                                         (* 3855-3893 *)
      match stack s with
      | [] => Reported
      | nd :: st =>
          if negb (Nat.eqb (file nd) f) then Reported
          else if is_else nd then Reported
          else if disabled st then Done (behind (mknode (is_true nd) true (is_disabled_elif nd) f :: st) (effects s))
          else Done (behind (mknode (negb (is_true nd || is_disabled_elif nd)) true (is_disabled_elif nd) f :: st) (effects s))
      end
  | Endif f =>                                                        (* 3894-3912 *)
      match stack s with
      | [] => Reported
      | nd :: st => if negb (Nat.eqb (file nd) f) then Reported else Done (behind st (effects s))
      end
  end.

(** preprocess.c 3466-4824 *)
Fixpoint run (s : state) (ls : list line) : outcome (list effect) :=
  match ls with
  | [] => match stack s with [] => Done (effects s) | _ => Reported end
  | l :: ls => obind (step s l) (fun s => run s ls)
  end.
Definition preprocess (ls : list line) : outcome (list effect) := run (mkstate [] false []) ls.
