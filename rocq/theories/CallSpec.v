(** What C says about expressions made of function calls, and what a caller may rely on at
    the level of the machine (the x64 calling convention for up to four integers). *)
From Coq Require Import List ZArith Bool.
From Verif Require Import Base IntTypes CSpec LowerSpec X64Machine.
Import ListNotations.
Open Scope Z_scope.

Record signature : Set := mksignature { parameters : list ity; result : ity }.

(** Calls whose arguments are calls or expressions over the local variables. *)
Inductive cexpr : Set :=
| Plain (e : vexpr)
| Call (f : nat) (args : list cexpr).

(** Every expression without calls satisfies [P]. *)
Fixpoint plain_parts (P : vexpr -> Prop) (e : cexpr) : Prop :=
  match e with
  | Plain e => P e
  | Call f args => (fix all (l : list cexpr) : Prop := match l with [] => True | a :: l => plain_parts P a /\ all l end) args
  end.

(** Every call has as many arguments as its function has parameters. *)
Fixpoint arguments_match (sigs : nat -> signature) (e : cexpr) : Prop :=
  match e with
  | Plain e => True
  | Call f args => length args = length (parameters (sigs f)) /\
      (fix all (l : list cexpr) : Prop := match l with [] => True | a :: l => arguments_match sigs a /\ all l end) args
  end.

Section Spec.
(** [W]: the state of everything outside the caller's locals.  [meaning f vs w]: what a call of [f] with the arguments
    [vs] in the state [w] returns, and the state after it; [None] if the behaviour is undefined. *)
Variable W : Type.
Variable sigs : nat -> signature.
Variable meaning : nat -> list Z -> W -> option (Z * W).
Variable ty : typing.
Variable env : values.

(** The type and the value; arguments from left to right (one of the orders C allows), each converted to the type of
    its parameter (6.5.2.2). *)
Fixpoint ceval (w : W) (e : cexpr) {struct e} : option (ity * Z * W) :=
  match e with
  | Plain e => match veval ty env e with Some (t, v) => Some (t, v, w) | None => None end
  | Call f args =>
      match (fix arguments (ps : list ity) (args : list cexpr) (w : W) {struct args} : option (list Z * W) :=
               match ps, args with
               | [], [] => Some ([], w)
               | p :: ps, a :: args =>
                   match ceval w a with
                   | Some (_, v, w) =>
                       match arguments ps args w with
                       | Some (vs, w) => Some (convert p v :: vs, w)
                       | None => None
                       end
                   | None => None
                   end
               | _, _ => None
               end) (parameters (sigs f)) args w with
      | Some (vs, w) =>
          match meaning f vs w with
          | Some (v, w) => Some (result (sigs f), v, w)
          | None => None
          end
      | None => None
      end
  end.
End Spec.

(** RCX, RDX, R8, R9 hold the arguments. *)
Fixpoint registers_hold (rs : list Z) (ps : list ity) (vs : list Z) (m : machine) : Prop :=
  match rs, ps, vs with
  | _, [], [] => True
  | r :: rs, p :: ps, v :: vs => regs m r mod 2 ^ width p = v mod 2 ^ width p /\ registers_hold rs ps vs m
  | _, _, _ => False
  end.
Definition passed : list ity -> list Z -> machine -> Prop := registers_hold [1; 2; 8; 9].

(** The registers a function may change (RAX, RCX, RDX, R8 to R11). *)
Definition may_change (r : Z) : Prop := r = 0 \/ r = 1 \/ r = 2 \/ 8 <= r <= 11.

(** [saved]: what the other registers, like the stack pointer, hold while the caller runs.
    [callee f m]: the machine when the function [f], called by the CALL instruction at [pc m], has returned.  It returns
    behind the CALL (5 bytes), with the result in RAX, the other registers unchanged except those it may change,
    and the caller's frame, from [lo] to [hi], unchanged.  Anything else in memory may have changed; what matters of
    it is the state [w]. *)
Definition conforms {W : Type} (sigs : nat -> signature) (meaning : nat -> list Z -> W -> option (Z * W)) (world : (Z -> Z) -> W -> Prop)
    (saved : Z -> Z) (lo hi : Z) (callee : nat -> machine -> option machine) : Prop :=
  forall f vs w v w' m,
    (forall r, 0 <= regs m r < 2 ^ 64) -> (forall r, ~ may_change r -> regs m r = saved r) ->
    world (mem m) w -> meaning f vs w = Some (v, w') -> passed (parameters (sigs f)) vs m ->
    exists m', callee f m = Some m' /\ pc m' = pc m + 5 /\
      regs m' 0 mod 2 ^ width (result (sigs f)) = v mod 2 ^ width (result (sigs f)) /\
      (forall r, ~ may_change r -> regs m' r = regs m r) /\ (forall r, 0 <= regs m' r < 2 ^ 64) /\
      (forall a, lo <= a < hi -> mem m' a = mem m a) /\ world (mem m') w'.

(** Functions return values of their types. *)
Definition results_in_type {W : Type} (sigs : nat -> signature) (meaning : nat -> list Z -> W -> option (Z * W)) : Prop :=
  forall f vs w v w', meaning f vs w = Some (v, w') -> object_value (result (sigs f)) v.

(** The state does not depend on the caller's frame. *)
Definition independent {W : Type} (world : (Z -> Z) -> W -> Prop) (lo hi : Z) : Prop :=
  forall M M' w, (forall a, ~ (lo <= a < hi) -> M' a = M a) -> world M w -> world M' w.

(** The function called at a position, by the list of call sites: function and position of the four bytes of the
    displacement, which the linker fills in. *)
Definition called (sites : list (nat * Z)) (p : Z) : option nat :=
  match find (fun x => snd x =? p) sites with Some x => Some (fst x) | None => None end.

(** [text] has the bytes [code] at [start], except that the displacements of the calls are filled in. *)
Definition linked (text : list Z) (start : Z) (code : list Z) (sites : list (nat * Z)) : Prop :=
  0 <= start /\ forall i, 0 <= i < Z.of_nat (length code) -> (forall f p, In (f, p) sites -> ~ (p <= i < p + 4)) ->
    nth_error text (Z.to_nat (start + i)) = nth_error code (Z.to_nat i).

(** Runs of the code that starts at [start] in [text]: instructions, and calls of other functions. *)
Inductive crun (text : list Z) (start : Z) (sites : list (nat * Z)) (callee : nat -> machine -> option machine) : machine -> machine -> Prop :=
| crun_done : forall m, crun text start sites callee m m
| crun_step : forall m m1 m2, step text m = Some m1 -> crun text start sites callee m1 m2 -> crun text start sites callee m m2
| crun_call : forall m m1 m2 f, at_code text (pc m) [0xE8] -> called sites (pc m + 1 - start) = Some f -> callee f m = Some m1 ->
    crun text start sites callee m1 m2 -> crun text start sites callee m m2.
