(** C's `#if` expressions (C11 6.10.1, 6.6, 6.5): their grammar and their value. *)
From Verif Require Import Base IfModel.

Inductive expr : Set :=
  | Literal (u : bool) (v : Z) | Char (v : Z) | Name (n : nat) | IsDefined (n : nat)
  | Group (e : expr) | Pos (e : expr) | Un (o : unary) (e : expr) | Bin (b : binary) (x y : expr) | Cond (c x y : expr).

Definition unary_token (o : unary) : token := match o with Not => Bang | Compl => Tilde | Neg => Operator Minus end.

(** The binary operators of each level (C11 6.5.5-6.5.14). *)
Definition c_level (b : binary) : Z :=
  match b with
  | Times | Div | Mod => 3
  | Plus | Minus => 4
  | Shl | Shr => 5
  | Lt | Gt | Le | Ge => 6
  | Eq | Ne => 7
  | And => 8
  | Xor => 9
  | Or => 10
  | LAnd => 11
  | LOr => 12
  end.

(** [reads l ts e]: the tokens are an expression of level [l]: 2 unary, 3 multiplicative, 4 additive,
    5 shift, 6 relational, 7 equality, 8 and, 9 exclusive or, 10 or, 11 logical and, 12 logical or,
    13 conditional (C11 6.5.3-6.5.15). *)
Inductive reads : Z -> list token -> expr -> Prop :=
  | r_literal : forall u v, 0 <= v < 2 ^ 64 -> reads 2 [Number u v] (Literal u v)
  | r_char : forall v, -128 <= v < 128 -> reads 2 [Character v] (Char v)
  | r_name : forall n, reads 2 [Identifier n] (Name n)
  | r_defined : forall n, reads 2 [Defined; Identifier n] (IsDefined n)
  | r_defined_parens : forall n, reads 2 [Defined; LParen; Identifier n; RParen] (IsDefined n)
  | r_group : forall ts e, reads 13 ts e -> reads 2 (LParen :: ts ++ [RParen]) (Group e)
  | r_plus : forall ts e, reads 2 ts e -> reads 2 (Operator Plus :: ts) (Pos e)
  | r_unary : forall o ts e, reads 2 ts e -> reads 2 (unary_token o :: ts) (Un o e)
  | r_binary : forall b ts us x y, reads (c_level b) ts x -> reads (c_level b - 1) us y -> reads (c_level b) (ts ++ Operator b :: us) (Bin b x y)
  | r_conditional : forall ts us vs c x y, reads 12 ts c -> reads 13 us x -> reads 13 vs y -> reads 13 (ts ++ Question :: us ++ Colon :: vs) (Cond c x y)
  | r_up : forall l l' ts e, reads l ts e -> l < l' <= 13 -> reads l' ts e.

(** Literals that are read without an error. *)
Definition representable (t : token) : Prop := match t with Number _ v => 0 <= v < 2 ^ 64 | Character v => -128 <= v < 128 | _ => True end.

(** Everything is intmax_t or uintmax_t (6.10.1p4): is the type of an expression unsigned? *)
Fixpoint unsigned (e : expr) : bool :=
  match e with
  | Literal u v => u || (2 ^ 63 <=? v)
  | Char _ | Name _ | IsDefined _ => false
  | Group e | Pos e => unsigned e
  | Un Not _ => false
  | Un _ e => unsigned e
  | Bin (Shl | Shr) x _ => unsigned x
  | Bin (Eq | Ne | Ge | Le | Gt | Lt | LAnd | LOr) _ _ => false
  | Bin _ x y => unsigned x || unsigned y
  | Cond _ x y => unsigned x || unsigned y
  end.

(** The result of an operation whose mathematical result is [z]: reduced if unsigned, undefined if it
    does not fit and is signed. *)
Definition as_type (u : bool) (z : Z) : option Z := if u then Some (z mod 2 ^ 64) else if (- 2 ^ 63 <=? z) && (z <? 2 ^ 63) then Some z else None.
(** A value converted to the common type of the operands. *)
Definition common (u : bool) (z : Z) : Z := if u then z mod 2 ^ 64 else z.

Section Value.
Variable is_macro : nat -> bool.

(** The value of an operator on two values; [xu], [yu] the types of the operands. *)
Definition binary_value (b : binary) (xu yu : bool) (x y : Z) : option Z :=
  let u := xu || yu in
  let x' := common u x in let y' := common u y in
  match b with
  | Times => as_type u (x' * y')
  | Div => if y' =? 0 then None else as_type u (Z.quot x' y')
  | Mod => if y' =? 0 then None else if as_type u (Z.quot x' y') then as_type u (Z.rem x' y') else None
  | Plus => as_type u (x' + y')
  | Minus => as_type u (x' - y')
  | Shl => if (y <? 0) || (64 <=? y) then None else if xu then as_type true (x * 2 ^ y) else if x <? 0 then None else as_type false (x * 2 ^ y)
  | Shr => if (y <? 0) || (64 <=? y) then None else as_type xu (x / 2 ^ y)
  | And => as_type u (Z.land x' y')
  | Xor => as_type u (Z.lxor x' y')
  | Or => as_type u (Z.lor x' y')
  | Eq => Some (Z.b2z (x' =? y'))
  | Ne => Some (Z.b2z (negb (x' =? y')))
  | Ge => Some (Z.b2z (y' <=? x'))
  | Le => Some (Z.b2z (x' <=? y'))
  | Gt => Some (Z.b2z (y' <? x'))
  | Lt => Some (Z.b2z (x' <? y'))
  | LAnd => Some (Z.b2z (negb (x =? 0) && negb (y =? 0)))
  | LOr => Some (Z.b2z (negb (x =? 0) || negb (y =? 0)))
  end.

Fixpoint value (e : expr) : option Z :=
  match e with
  | Literal _ v | Char v => Some v
  | Name _ => Some 0
  | IsDefined n => Some (Z.b2z (is_macro n))
  | Group e | Pos e => value e
  | Un o e =>
      match value e with
      | None => None
      | Some v => match o with Not => Some (Z.b2z (v =? 0)) | Compl => as_type (unsigned e) (- v - 1) | Neg => as_type (unsigned e) (- v) end
      end
  | Bin LAnd x y =>
      match value x with
      | None => None
      | Some 0 => Some 0
      | Some _ => match value y with None => None | Some v => Some (Z.b2z (negb (v =? 0))) end
      end
  | Bin LOr x y =>
      match value x with
      | None => None
      | Some 0 => match value y with None => None | Some v => Some (Z.b2z (negb (v =? 0))) end
      | Some _ => Some 1
      end
  | Bin b x y => match value x, value y with Some v, Some w => binary_value b (unsigned x) (unsigned y) v w | _, _ => None end
  | Cond c x y =>
      match value c with
      | None => None
      | Some v => match value (if v =? 0 then y else x) with None => None | Some w => Some (common (unsigned x || unsigned y) w) end
      end
  end.

(** Every part of the expression has a value, evaluated or not. *)
Fixpoint all_defined (e : expr) : Prop :=
  value e <> None /\
  match e with Group e | Pos e | Un _ e => all_defined e | Bin _ x y => all_defined x /\ all_defined y | Cond c x y => all_defined c /\ all_defined x /\ all_defined y | _ => True end.
End Value.

(** The places where the signedness of the evaluator is that of C. *)
Fixpoint regular (e : expr) : Prop :=
  match e with
  | Literal u v => u = false -> v <> 2 ^ 63 - 1
  | Char _ | Name _ | IsDefined _ => True
  | Group e | Pos e => regular e
  | Un Not e => unsigned e = false /\ regular e
  | Un _ e => regular e
  | Bin (Shl | Shr) x y => (unsigned y = true -> unsigned x = true) /\ regular x /\ regular y
  | Bin _ x y => regular x /\ regular y
  | Cond c x y => unsigned x = unsigned y /\ regular c /\ regular x /\ regular y
  end.

(** How many operators wait at most for their right operand. *)
Fixpoint pending (e : expr) : Z :=
  match e with
  | Literal _ _ | Char _ | Name _ | IsDefined _ => 0
  | Pos e => pending e
  | Group e | Un _ e => 1 + pending e
  | Bin _ x y => Z.max (pending x) (1 + pending y)
  | Cond c x y => Z.max (pending c) (Z.max (1 + pending x) (2 + pending y))
  end.
