(** C45: what C says about statements (C11 6.8): which statement runs next.  Expressions are those of
    BranchSpec.v; variables are integers.  Written with continuations: the statement being run, what remains to be
    done after it, and the values of the variables. *)
From Coq Require Import List ZArith Bool.
From Verif Require Import IntTypes CSpec LowerSpec BranchSpec.
Import ListNotations.
Open Scope Z_scope.

(** [e;] and [x = e;] *)
Inductive effect : Set :=
| Evaluate (e : bexpr)
| Assign (x : nat) (e : bexpr).

(** A block is nested [SSeq].  [for(init; c; e) a] is [SSeq init (SFor c e a)].  Case labels are
    integer constants; names of labels are numbers. *)
Inductive stmt : Set :=
| SSkip
| SEffect (f : effect)
| SSeq (a b : stmt)
| SIf (e : bexpr) (a : stmt)
| SIfElse (e : bexpr) (a b : stmt)
| SWhile (e : bexpr) (a : stmt)
| SDo (a : stmt) (e : bexpr)
| SFor (c : option bexpr) (f : option effect) (a : stmt)
| SBreak
| SContinue
| SSwitch (e : bexpr) (a : stmt)
| SCase (t : ity) (payload : Z) (a : stmt)
| SDefault (a : stmt)
| SReturn (e : option bexpr)
| SGoto (name : nat)
| SLabel (name : nat) (a : stmt).

(** What remains to be done. *)
Inductive cont : Set :=
| Kstop
| Kseq (b : stmt) (k : cont)
| Kwhile (e : bexpr) (a : stmt) (k : cont)                           (* in the body of [while] *)
| Kdo (a : stmt) (e : bexpr) (k : cont)
| Kfor (c : option bexpr) (f : option effect) (a : stmt) (k : cont)
| Kswitch (k : cont).

(** 6.8.6.3: behind the innermost loop or switch. *)
Fixpoint break_out (k : cont) : option cont :=
  match k with
  | Kstop => None
  | Kseq _ k => break_out k
  | Kwhile _ _ k | Kdo _ _ k | Kfor _ _ _ k | Kswitch k => Some k
  end.

(** 6.8.6.2: to the end of the body of the innermost loop. *)
Fixpoint continue_loop (k : cont) : option (stmt * cont) :=
  match k with
  | Kstop => None
  | Kseq _ k | Kswitch k => continue_loop k
  | Kwhile e a k => Some (SWhile e a, k)
  | Kdo a e k => Some (SSkip, Kdo a e k)
  | Kfor c f a k => Some (SSkip, Kfor c f a k)
  end.

(** What a jump looks for: a name, a case label with the given value after conversion to the type,
    or [default]. *)
Inductive target : Set :=
| Name (n : nat)
| Constant (t : ity) (v : Z)
| Default.

Definition orelse {A} (x y : option A) : option A := match x with Some _ => x | None => y end.

(** The statement behind the label in [s], and what remains to be done after it.  The case labels and
    the default of a nested switch belong to that switch. *)
Fixpoint seek (p : target) (s : stmt) (k : cont) : option (stmt * cont) :=
  match s with
  | SSkip | SEffect _ | SBreak | SContinue | SReturn _ | SGoto _ => None
  | SSeq a b => orelse (seek p a (Kseq b k)) (seek p b k)
  | SIf _ a => seek p a k
  | SIfElse _ a b => orelse (seek p a k) (seek p b k)
  | SWhile e a => seek p a (Kwhile e a k)
  | SDo a e => seek p a (Kdo a e k)
  | SFor c f a => seek p a (Kfor c f a k)
  | SSwitch _ a => match p with Name _ => seek p a (Kswitch k) | _ => None end
  | SCase t0 p0 a =>
      match p with
      | Constant t v => if convert t (value_of_bits t0 p0) =? v then Some (a, k) else seek p a k
      | _ => seek p a k
      end
  | SDefault a => match p with Default => Some (a, k) | _ => seek p a k end
  | SLabel n0 a => match p with Name n => if Nat.eqb n0 n then Some (a, k) else seek p a k | _ => seek p a k end
  end.

(** The function has run to an end with the given values of its variables, or goes on. *)
Inductive progress : Type :=
| Running (s : stmt) (k : cont) (env : values)
| Returned (v : option Z) (env : values)
| Ended (env : values)                          (* reached the closing brace *)
| Undefined.

Section Function.
Variable ty : typing.
(** The return type, [None] for void; the body; whether this is [main]. *)
Variable rt : option ity.
Variable body : stmt.
Variable is_main : bool.

Definition effect_value (f : effect) (env : values) : option values :=
  match f with
  | Evaluate e => bind (beval ty env e) (fun _ => Some env)
  | Assign x e => bind (beval ty env e) (fun v => Some (assigned env x (convert (ty x) (snd v))))
  end.

Definition test (e : bexpr) (env : values) (yes no : stmt * cont) : progress :=
  match beval ty env e with
  | Some (_, v) => let '(s, k) := if v =? 0 then no else yes in Running s k env
  | None => Undefined
  end.

Definition continue_at (r : option (stmt * cont)) (env : values) : progress :=
  match r with Some (s, k) => Running s k env | None => Undefined end.

(** One step.  5.1.2.2.3: reaching the end of [main] returns 0. *)
Definition cstep (s : stmt) (k : cont) (env : values) : progress :=
  match s with
  | SSkip =>
      match k with
      | Kstop =>
          match is_main, rt with
          | true, Some S32 => Returned (Some 0) env
          | _, _ => Ended env
          end
      | Kseq b k => Running b k env
      | Kwhile e a k => Running (SWhile e a) k env
      | Kdo a e k => test e env (SDo a e, k) (SSkip, k)
      | Kfor c None a k => Running (SFor c None a) k env
      | Kfor c (Some f) a k =>
          match effect_value f env with Some env => Running (SFor c (Some f) a) k env | None => Undefined end
      | Kswitch k => Running SSkip k env
      end
  | SEffect f => match effect_value f env with Some env => Running SSkip k env | None => Undefined end
  | SSeq a b => Running a (Kseq b k) env
  | SIf e a => test e env (a, k) (SSkip, k)
  | SIfElse e a b => test e env (a, k) (b, k)
  | SWhile e a => test e env (a, Kwhile e a k) (SSkip, k)
  | SDo a e => Running a (Kdo a e k) env
  | SFor None f a => Running a (Kfor None f a k) env
  | SFor (Some e) f a => test e env (a, Kfor (Some e) f a k) (SSkip, k)
  | SBreak => continue_at (match break_out k with Some k => Some (SSkip, k) | None => None end) env
  | SContinue => continue_at (continue_loop k) env
  | SSwitch e a =>
      match beval ty env e with
      | Some (t, v) =>
          continue_at (orelse (seek (Constant (promote t) v) a (Kswitch k))
                      (orelse (seek Default a (Kswitch k)) (Some (SSkip, k)))) env
      | None => Undefined
      end
  | SCase _ _ a | SDefault a | SLabel _ a => Running a k env
  | SReturn None => match rt with None => Returned None env | Some _ => Undefined end
  | SReturn (Some e) =>
      match rt, beval ty env e with
      | Some t, Some (_, v) => Returned (Some (convert t v)) env
      | _, _ => Undefined
      end
  | SGoto n => continue_at (seek (Name n) body Kstop) env
  end.

(** [n] steps, or fewer if the function has come to an end. *)
Fixpoint csteps (n : nat) (p : progress) : progress :=
  match n with
  | O => p
  | S n => match p with Running s k env => csteps n (cstep s k env) | _ => p end
  end.
End Function.

(** Expressions as in C44, and variables among the first [n]. *)
Definition expr_ok (n : nat) (e : bexpr) : Prop := variables_below n e /\ blits_ok e /\ no_constant_after_comma e.
Definition effect_ok (n : nat) (f : effect) : Prop :=
  match f with Evaluate e => expr_ok n e | Assign x e => (x < n)%nat /\ expr_ok n e end.
Definition all {A} (P : A -> Prop) (x : option A) : Prop := match x with Some a => P a | None => True end.

Fixpoint stmt_ok (n : nat) (s : stmt) : Prop :=
  match s with
  | SSkip | SBreak | SContinue | SGoto _ => True
  | SEffect f => effect_ok n f
  | SSeq a b => stmt_ok n a /\ stmt_ok n b
  | SIf e a | SWhile e a | SDo a e | SSwitch e a => expr_ok n e /\ stmt_ok n a
  | SIfElse e a b => expr_ok n e /\ stmt_ok n a /\ stmt_ok n b
  | SFor c f a => all (expr_ok n) c /\ all (effect_ok n) f /\ stmt_ok n a
  | SCase t p a => object_value t (value_of_bits t p) /\ stmt_ok n a
  | SDefault a | SLabel _ a => stmt_ok n a
  | SReturn e => all (expr_ok n) e
  end.
