(** What C says about integer expressions over variables, about assignments and about pointer
    arithmetic.  Conversions and operators are those of CSpec.v. *)
From Coq Require Import List ZArith Bool.
From Verif Require Import Base IntTypes CSpec FieldSpec.
Import ListNotations.
Open Scope Z_scope.

(** Integer expressions without side effects and without jumps. *)
Inductive vexpr : Set :=
| VLit (t : ity) (payload : Z)
| VVar (x : nat)
| VUn (o : un_op) (e : vexpr)
| VCast (t : ity) (e : vexpr)
| VArith (o : arith_op) (a b : vexpr)
| VCmp (o : cmp_op) (a b : vexpr)
| VBit (o : bit_op) (a b : vexpr)
| VShl (a b : vexpr)
| VShr (a b : vexpr)
| VComma (a b : vexpr).

(** [ty]: the types of the variables, [env]: their values. *)
Definition typing := nat -> ity.
Definition values := nat -> Z.

(** The binary operators, given the operands' types and values.  [None]: no defined value.
    Overflow of signed + - * << is given the two's complement value, as in CSpec.v. *)
Definition arith_value (o : arith_op) (x y : ity * Z) : option (ity * Z) :=
  let t := usual_int (fst x) (fst y) in
  bind (arith_sem o t (convert t (snd x)) (convert t (snd y))) (fun v => Some (t, v)).
Definition bit_value (o : bit_op) (x y : ity * Z) : option (ity * Z) :=
  let t := usual_int (fst x) (fst y) in
  Some (t, bit_sem o (convert t (snd x)) (convert t (snd y))).
Definition shl_value (x y : ity * Z) : option (ity * Z) :=
  let t := promote (fst x) in
  if (0 <=? snd y) && (snd y <? width t) then Some (t, convert t (snd x * 2 ^ snd y)) else None.
Definition shr_value (x y : ity * Z) : option (ity * Z) :=
  let t := promote (fst x) in
  if (0 <=? snd y) && (snd y <? width t) then Some (t, snd x / 2 ^ snd y) else None.

Fixpoint veval (ty : typing) (env : values) (e : vexpr) : option (ity * Z) :=
  match e with
  | VLit t p => Some (t, value_of_bits t p)
  | VVar x => Some (ty x, env x)
  | VUn o a => bind (veval ty env a) (fun x => Some (un_sem o (fst x) (snd x)))
  | VCast t a => bind (veval ty env a) (fun x => Some (t, convert t (snd x)))
  | VArith o a b => bind (veval ty env a) (fun x => bind (veval ty env b) (fun y => arith_value o x y))
  | VCmp o a b =>
      bind (veval ty env a) (fun x => bind (veval ty env b) (fun y =>
        let t := usual_int (fst x) (fst y) in
        Some (S32, cmp_sem o (convert t (snd x)) (convert t (snd y)))))
  | VBit o a b => bind (veval ty env a) (fun x => bind (veval ty env b) (fun y => bit_value o x y))
  | VShl a b => bind (veval ty env a) (fun x => bind (veval ty env b) (fun y => shl_value x y))
  | VShr a b => bind (veval ty env a) (fun x => bind (veval ty env b) (fun y => shr_value x y))
  | VComma a b => bind (veval ty env a) (fun _ => veval ty env b)
  end.

(** A value an object of the type can have: a [_Bool] is 0 or 1. *)
Definition object_value (t : ity) (v : Z) : Prop :=
  in_range t v /\ (t = TBool -> v = 0 \/ v = 1).

(** [_Bool] literals are 0 or 1. *)
Fixpoint literals_ok (e : vexpr) : Prop :=
  match e with
  | VLit t p => object_value t (value_of_bits t p)
  | VVar _ => True
  | VUn _ a | VCast _ a => literals_ok a
  | VArith _ a b | VCmp _ a b | VBit _ a b | VShl a b | VShr a b | VComma a b => literals_ok a /\ literals_ok b
  end.

(** No variables and no comma: what the compiler may treat as a constant. *)
Fixpoint constant (e : vexpr) : bool :=
  match e with
  | VLit _ _ => true
  | VVar _ => false
  | VUn _ a | VCast _ a => constant a
  | VArith _ a b | VCmp _ a b | VBit _ a b | VShl a b | VShr a b => constant a && constant b
  | VComma _ _ => false
  end.

(** No comma operator whose right operand is a constant. *)
Fixpoint no_constant_comma (e : vexpr) : Prop :=
  match e with
  | VLit _ _ | VVar _ => True
  | VUn _ a | VCast _ a => no_constant_comma a
  | VArith _ a b | VCmp _ a b | VBit _ a b | VShl a b | VShr a b => no_constant_comma a /\ no_constant_comma b
  | VComma a b => no_constant_comma a /\ no_constant_comma b /\ constant b = false
  end.

(** The memory [m] holds the values [env]: each variable its value modulo its width. *)
Definition holds (ty : typing) (env : values) (m : nat -> Z) : Prop :=
  forall x, object_value (ty x) (env x) /\ m x = env x mod 2 ^ width (ty x).

(** [l op= r] (6.5.16.2): the value assigned is [l op r] converted to the type of [l]. *)
Inductive compound_op : Set :=
| KArith (o : arith_op)
| KBit (o : bit_op)
| KShl
| KShr.

Definition compound_value (k : compound_op) (x y : ity * Z) : option (ity * Z) :=
  match k with
  | KArith o => arith_value o x y
  | KBit o => bit_value o x y
  | KShl => shl_value x y
  | KShr => shr_value x y
  end.

(** Divisions [x /= v], [x %= v], [x] of type [T] and [v] of type [R], that can be done in one
    of two ways: in the common type, or in the type [T] because that changes nothing.  The
    first is what the compiler does for a wider right side, unless that is a small constant. *)
Definition division_kept (T R : ity) (const : bool) (x v : Z) : Prop :=
  T = TBool \/
  width T < width R /\ (const = false \/ v < 0 \/ 2 ^ (width T / 8) <= v) \/
  usual_int T R = T \/
  (let u := usual_int T R in
   convert u x = x /\ convert u v = v /\ convert T v = v /\ representable T (Z.quot x v) = true).

Definition compound_kept (k : compound_op) (T R : ity) (const : bool) (x v : Z) : Prop :=
  match k with
  | KArith ODiv | KArith OMod => division_kept T R const x v
  | _ => True
  end.

(** Only [x] changes, to [v]. *)
Definition assigned (env : values) (x : nat) (v : Z) : values :=
  fun y => if Nat.eqb y x then v else env y.

(** Pointer expressions over pointer variables and constants; [e] counts elements. *)
Inductive pexpr : Set :=
| PVar (x : nat)
| PLit (address : Z)
| PAdd (p : pexpr) (e : vexpr)
| PAddLeft (e : vexpr) (p : pexpr)
| PSub (p : pexpr) (e : vexpr)
| PIndex (p : pexpr) (e : vexpr).          (* [& p[e]] *)

(** The byte address a pointer expression denotes, for elements of [size] bytes. *)
Fixpoint peval (size : Z) (ty : typing) (env : values) (p : pexpr) : option Z :=
  match p with
  | PVar x => Some (env x mod 2 ^ 64)
  | PLit a => Some (a mod 2 ^ 64)
  | PAdd p e | PAddLeft e p | PIndex p e =>
      bind (peval size ty env p) (fun a => bind (veval ty env e) (fun i => Some ((a + snd i * size) mod 2 ^ 64)))
  | PSub p e =>
      bind (peval size ty env p) (fun a => bind (veval ty env e) (fun i => Some ((a - snd i * size) mod 2 ^ 64)))
  end.

(** A pointer constant, and expressions in which no constant is added to one. *)
Fixpoint pconstant (p : pexpr) : bool :=
  match p with
  | PVar _ => false
  | PLit _ => true
  | PAdd p e | PAddLeft e p | PSub p e => pconstant p && constant e
  | PIndex _ _ => false
  end.
Fixpoint no_constant_step (p : pexpr) : Prop :=
  match p with
  | PVar _ | PLit _ => True
  | PAdd p e | PAddLeft e p | PSub p e => no_constant_step p /\ pconstant p && constant e = false
  | PIndex p e => no_constant_step p
  end.
Fixpoint pointers_ok (ty : typing) (p : pexpr) : Prop :=
  match p with
  | PVar x => ty x = U64
  | PLit _ => True
  | PAdd p e | PAddLeft e p | PSub p e | PIndex p e => pointers_ok ty p /\ literals_ok e /\ no_constant_comma e
  end.
