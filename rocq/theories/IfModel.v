(** The evaluation of `#if` conditions: static_if_evaluate (preprocess.c 2920-3359).
    The tokens are those after macro expansion.  Left out: `__has_include`, warnings,
    literals with a Microsoft size suffix (`1i8`), and what is inside of number and character tokens
    (a token carries its value; wide characters are unsigned numbers). *)
From Verif Require Import Base.

Inductive binary : Set := Times | Div | Mod | Plus | Minus | Shl | Shr | Ge | Le | Gt | Lt | Eq | Ne | And | Xor | Or | LAnd | LOr.
Inductive unary : Set := Not | Compl | Neg.
Inductive token : Set :=
  | Number (u : bool) (v : Z)   (* a literal, its value, is there an unsigned suffix *)
  | Character (v : Z)           (* a character literal without prefix: its (signed) value *)
  | Identifier (n : nat) | Defined
  | Bang | Tilde | Operator (b : binary) | Question | Colon | LParen | RParen | Stray.

Inductive operation : Set := UNARY (o : unary) | BINARY (b : binary) | PAREN | CONDITION | IF_TRUE.
(** struct static_if_evaluate_stack_node (main.c 730-737). *)
Record node : Set := mknode { op : operation; nval : Z; nuns : bool }.

(** token_to_precedence (preprocess.c 3089-3133); 0 for every other token. *)
Definition level (b : binary) : Z :=
  match b with
  | Times | Div | Mod => 3 | Plus | Minus => 4 | Shl | Shr => 5 | Ge | Le | Gt | Lt => 6 | Eq | Ne => 7 | And => 8 | Xor => 9 | Or => 10 | LAnd => 11 | LOr => 12
  end.
Definition token_precedence (t : option token) : Z := match t with Some (Operator b) => level b | Some Question => 13 | _ => 0 end.
(** operation_to_precedence (preprocess.c 3138-3176). *)
Definition operation_precedence (o : operation) : Z := match o with UNARY _ => 2 | BINARY b => level b | PAREN => 16 | CONDITION => 16 | IF_TRUE => 13 end.

(** [Operand]: at the label `retry`.  [After]: at the `while` loop, with a value and the tokens from
    `binary_expression` on. *)
Inductive config : Set := Operand (st : list node) (ts : list token) | After (st : list node) (v : Z) (u : bool) (ts : list token).
Inductive next : Set := Next (c : config) | Value (v : Z) | Error | Trap.

(** static_if_stack_push (preprocess.c 2905-2918): the array has 1024 nodes, the first is not used. *)
Definition push (st : list node) (n : node) (k : list node -> next) : next := if 1024 <=? Z.of_nat (length st) + 1 then Error else k (n :: st).

(** The binary operators on 64-bit values (preprocess.c 3195-3270).  Where the compiler's own signed
    arithmetic overflows, two's complement is assumed; a shift by 64 or more and the division of the
    least number by -1 are traps. *)
Definition compute (b : binary) (x : Z) (xu : bool) (y : Z) (yu : bool) : outcome (Z * bool) :=
  let u := orb yu xu in
  let sx := wraps 64 x in let sy := wraps 64 y in
  match b with
  | Shl => if 64 <=? y then Crash else Done (wrapu 64 (x * 2 ^ y), u)
  | Shr => if 64 <=? y then Crash else Done (wrapu 64 (if u then x / 2 ^ y else sx / 2 ^ y), u)
  | And => Done (Z.land x y, u)
  | Or => Done (Z.lor x y, u)
  | Xor => Done (Z.lxor x y, u)
  | Times => Done (wrapu 64 (if u then x * y else sx * sy), u)
  | Div => if y =? 0 then Reported else if u then Done (x / y, u) else if (sx =? - 2 ^ 63) && (sy =? -1) then Crash else Done (wrapu 64 (Z.quot sx sy), u)
  | Mod => if y =? 0 then Reported else if u then Done (x mod y, u) else if (sx =? - 2 ^ 63) && (sy =? -1) then Crash else Done (wrapu 64 (Z.rem sx sy), u)
  | Plus => Done (wrapu 64 (x + y), u)
  | Minus => Done (wrapu 64 (x - y), u)
  | Eq => Done (Z.b2z (x =? y), false)
  | Ne => Done (Z.b2z (negb (x =? y)), false)
  | Ge => Done (Z.b2z (if u then y <=? x else sy <=? sx), false)
  | Le => Done (Z.b2z (if u then x <=? y else sx <=? sy), false)
  | Gt => Done (Z.b2z (if u then y <? x else sy <? sx), false)
  | Lt => Done (Z.b2z (if u then x <? y else sx <? sy), false)
  | LAnd => Done (Z.b2z (negb (x =? 0) && negb (y =? 0)), false)
  | LOr => Done (Z.b2z (negb (x =? 0) || negb (y =? 0)), false)
  end.
(** preprocess.c 3191-3193: the signedness stays what it was. *)
Definition compute_unary (o : unary) (v : Z) : Z := match o with Not => Z.b2z (v =? 0) | Compl => wrapu 64 (- v - 1) | Neg => wrapu 64 (- v) end.

Section Evaluate.
Variable is_macro : nat -> bool.

(** One round from `retry` (preprocess.c 2934-3087). *)
Definition operand (st : list node) (ts : list token) : next :=
  match ts with
  | Bang :: ts' => push st (mknode (UNARY Not) 0 false) (fun st => Next (Operand st ts'))
  | Tilde :: ts' => push st (mknode (UNARY Compl) 0 false) (fun st => Next (Operand st ts'))
  | Operator Minus :: ts' => push st (mknode (UNARY Neg) 0 false) (fun st => Next (Operand st ts'))
  | Operator Plus :: ts' => Next (Operand st ts')
  | Number u v :: ts' => Next (After st v (u || negb (v <? 2 ^ 63 - 1)) ts')
  | Character v :: ts' => Next (After st (wrapu 64 v) false ts')
  | Identifier _ :: ts' => Next (After st 0 false ts')
  | Defined :: LParen :: Identifier n :: RParen :: ts' => Next (After st (Z.b2z (is_macro n)) false ts')
  | Defined :: Identifier n :: ts' => Next (After st (Z.b2z (is_macro n)) false ts')
  | LParen :: ts' => push st (mknode PAREN 0 false) (fun st => Next (Operand st ts'))
  | _ => Error
  end.

(** The `switch` after the loop (preprocess.c 3308-3355). *)
Definition operator (st : list node) (v : Z) (u : bool) (ts : list token) : next :=
  match ts with
  | Operator b :: ts' => push st (mknode (BINARY b) v u) (fun st => Next (Operand st ts'))
  | Question :: ts' => push st (mknode CONDITION v u) (fun st => Next (Operand st ts'))
  | _ => match st with [] => Value v | _ => Trap end
  end.

(** One round of the loop (preprocess.c 3137-3306). *)
Definition after (st : list node) (v : Z) (u : bool) (ts : list token) : next :=
  match st with
  | [] => operator st v u ts
  | n :: st' =>
      let p := token_precedence (hd_error ts) in
      let q := operation_precedence (op n) in
      if (negb (p =? 0) && (p <? q)) || ((q =? p) && (q =? 13)) then operator st v u ts
      else match op n with
           | UNARY o => Next (After st' (compute_unary o v) u ts)
           | BINARY b => match compute b (nval n) (nuns n) v u with Done (v', u') => Next (After st' v' u' ts) | Reported => Error | Crash => Trap end
           | PAREN => match ts with RParen :: ts' => Next (After st' v u ts') | _ => Error end
           | CONDITION => match ts with Colon :: ts' => push st' n (fun st1 => push st1 (mknode IF_TRUE v u) (fun st2 => Next (Operand st2 ts'))) | _ => Error end
           | IF_TRUE => match st' with c :: st'' => match op c with CONDITION => Next (After st'' (if nval c =? 0 then v else nval n) u ts) | _ => Trap end | [] => Trap end
           end
  end.

Definition step (c : config) : next := match c with Operand st ts => operand st ts | After st v u ts => after st v u ts end.
Fixpoint run (fuel : nat) (c : config) : outcome Z :=
  match fuel with O => Crash | S fuel => match step c with Next c' => run fuel c' | Value v => Done v | Error => Reported | Trap => Crash end end.
(** The value of the condition; the group is taken if it is not 0 (preprocess.c 3564). *)
Definition evaluate (ts : list token) : outcome Z := run (4 * length ts + 2) (Operand [] ts).
End Evaluate.
