(** What C (C11, LLP64, two's complement) says about integer types, conversions
    and constant expressions.  This file does not mention the compiler. *)
From Verif Require Import Base IntTypes.

(** Conversion rank (6.3.1.1): _Bool < char < short < int = long (one type here) < long long. *)
Definition rank (t : ity) : Z :=
  match t with
  | TBool => 0
  | S8 | U8 => 1
  | S16 | U16 => 2
  | S32 | U32 => 3
  | S64 | U64 => 4
  end.

Definition signed (t : ity) : bool :=
  match t with S8 | S16 | S32 | S64 => true | _ => false end.

(** Width in bits of the value representation; a [_Bool] object is one byte. *)
Definition width (t : ity) : Z :=
  match t with
  | TBool | S8 | U8 => 8 | S16 | U16 => 16 | S32 | U32 => 32 | S64 | U64 => 64
  end.

Definition minv (t : ity) : Z := if signed t then - 2 ^ (width t - 1) else 0.
Definition maxv (t : ity) : Z := if signed t then 2 ^ (width t - 1) - 1 else 2 ^ width t - 1.
Definition in_range (t : ity) (v : Z) : Prop := minv t <= v <= maxv t.
Definition representable (t : ity) (v : Z) : bool := (minv t <=? v) && (v <=? maxv t).
Definition subrange (a b : ity) : bool := (minv b <=? minv a) && (maxv a <=? maxv b).

(** 6.3.1.3: conversion to an integer type: the congruent value in range; _Bool: [v <> 0]. *)
Definition convert (t : ity) (v : Z) : Z :=
  match t with
  | TBool => if v =? 0 then 0 else 1
  | _ => let r := v mod 2 ^ width t in
         if r <=? maxv t then r else r - 2 ^ width t
  end.

(** 6.3.1.1p2 integer promotions. *)
Definition promote (t : ity) : ity :=
  if rank t <=? rank S32 then (if subrange t S32 then S32 else U32) else t.

(** 6.3.1.8 usual arithmetic conversions, integer part. *)
Definition unsigned_of (t : ity) : ity :=
  match t with S8 => U8 | S16 => U16 | S32 => U32 | S64 => U64 | _ => t end.

Definition usual_int (a b : ity) : ity :=
  let a := promote a in
  let b := promote b in
  if ity_eqb a b then a
  else if Bool.eqb (signed a) (signed b) then (if rank a <? rank b then b else a)
  else
    let u := if signed a then b else a in
    let s := if signed a then a else b in
    if rank s <=? rank u then u
    else if subrange u s then s
    else unsigned_of s.

(** 6.3.1.8 with the floating types. *)
Definition usual (a b : aty) : aty :=
  match a, b with
  | F64, _ | _, F64 => F64
  | F32, _ | _, F32 => F32
  | AInt a, AInt b => AInt (usual_int a b)
  end.

(** Constant expressions. *)
Inductive arith_op : Set := OAdd | OSub | OMul | ODiv | OMod.
Inductive cmp_op : Set := OEq | ONe | OGe | OLe | OGt | OLt.
Inductive bit_op : Set := OAnd | OOr | OXor.
Inductive un_op : Set := ONeg | OPlus | OCompl | OLNot.

Inductive cexpr : Set :=
| CLit (t : ity) (payload : Z)   (* a literal of type [t] whose object representation is the low bits of [payload] *)
| CUn (o : un_op) (e : cexpr)
| CCast (t : ity) (e : cexpr)
| CArith (o : arith_op) (a b : cexpr)
| CCmp (o : cmp_op) (a b : cexpr)
| CBit (o : bit_op) (a b : cexpr)
| CShl (a b : cexpr)
| CShr (a b : cexpr)
| CLAnd (a b : cexpr)
| CLOr (a b : cexpr)
| CCond (c a b : cexpr).

(** The value stored in the low bits of a 64-bit cell by an object of type [t]. *)
Definition value_of_bits (t : ity) (p : Z) : Z :=
  let r := p mod 2 ^ width t in
  if r <=? maxv t then r else r - 2 ^ width t.

Definition b2z (b : bool) : Z := if b then 1 else 0.

Definition arith_sem (o : arith_op) (t : ity) (x y : Z) : option Z :=
  match o with
  | OAdd => Some (convert t (x + y))
  | OSub => Some (convert t (x - y))
  | OMul => Some (convert t (x * y))
  | ODiv => if y =? 0 then None
            else if representable t (Z.quot x y) then Some (Z.quot x y) else None
  | OMod => if y =? 0 then None
            else if representable t (Z.quot x y) then Some (Z.rem x y) else None
  end.

Definition cmp_sem (o : cmp_op) (x y : Z) : Z :=
  b2z match o with
      | OEq => x =? y | ONe => negb (x =? y)
      | OGe => y <=? x | OLe => x <=? y
      | OGt => y <? x | OLt => x <? y
      end.

Definition bit_sem (o : bit_op) (x y : Z) : Z :=
  match o with OAnd => Z.land x y | OOr => Z.lor x y | OXor => Z.lxor x y end.

Definition un_sem (o : un_op) (t : ity) (x : Z) : ity * Z :=
  match o with
  | ONeg => (promote t, convert (promote t) (- x))
  | OPlus => (promote t, x)
  | OCompl => (promote t, convert (promote t) (Z.lnot x))
  | OLNot => (S32, b2z (x =? 0))
  end.

Definition bind {A B} (x : option A) (f : A -> option B) : option B :=
  match x with Some a => f a | None => None end.

(** The type and value of a constant expression all of whose operands have defined
    values; [None]: some operation has no defined value (division by zero, quotient
    not representable, shift amount out of range).  Overflowing + - * <<, undefined in C for
    signed types, are given the two's complement value. *)
Fixpoint ceval (e : cexpr) : option (ity * Z) :=
  match e with
  | CLit t p => Some (t, value_of_bits t p)
  | CUn o a => bind (ceval a) (fun x => Some (un_sem o (fst x) (snd x)))
  | CCast t a => bind (ceval a) (fun x => Some (t, convert t (snd x)))
  | CArith o a b =>
      bind (ceval a) (fun x => bind (ceval b) (fun y =>
        let t := usual_int (fst x) (fst y) in
        bind (arith_sem o t (convert t (snd x)) (convert t (snd y))) (fun v => Some (t, v))))
  | CCmp o a b =>
      bind (ceval a) (fun x => bind (ceval b) (fun y =>
        let t := usual_int (fst x) (fst y) in
        Some (S32, cmp_sem o (convert t (snd x)) (convert t (snd y)))))
  | CBit o a b =>
      bind (ceval a) (fun x => bind (ceval b) (fun y =>
        let t := usual_int (fst x) (fst y) in
        Some (t, bit_sem o (convert t (snd x)) (convert t (snd y)))))
  | CShl a b =>
      bind (ceval a) (fun x => bind (ceval b) (fun y =>
        let t := promote (fst x) in
        if (0 <=? snd y) && (snd y <? width t)
        then Some (t, convert t (snd x * 2 ^ snd y)) else None))
  | CShr a b =>
      bind (ceval a) (fun x => bind (ceval b) (fun y =>
        let t := promote (fst x) in
        if (0 <=? snd y) && (snd y <? width t)
        then Some (t, snd x / 2 ^ snd y) else None))
  | CLAnd a b =>
      bind (ceval a) (fun x => bind (ceval b) (fun y =>
        Some (S32, b2z (negb (snd x =? 0) && negb (snd y =? 0)))))
  | CLOr a b =>
      bind (ceval a) (fun x => bind (ceval b) (fun y =>
        Some (S32, b2z (negb (snd x =? 0) || negb (snd y =? 0)))))
  | CCond c a b =>
      bind (ceval c) (fun z => bind (ceval a) (fun x => bind (ceval b) (fun y =>
        let t := usual_int (fst x) (fst y) in
        Some (t, convert t (if snd z =? 0 then snd y else snd x)))))
  end.

(** The object representation of a [_Bool] is 0 or 1 (6.2.6.1: anything else is a trap
    representation). *)
Fixpoint bool_literals_ok (e : cexpr) : Prop :=
  match e with
  | CLit t p => t = TBool -> value_of_bits TBool p = 0 \/ value_of_bits TBool p = 1
  | CUn _ a | CCast _ a => bool_literals_ok a
  | CArith _ a b | CCmp _ a b | CBit _ a b | CShl a b | CShr a b | CLAnd a b | CLOr a b =>
      bool_literals_ok a /\ bool_literals_ok b
  | CCond c a b => bool_literals_ok c /\ bool_literals_ok a /\ bool_literals_ok b
  end.


(** Promotion of a bit-field operand (6.3.1.1p2) of declared type [base] and [w] bits:
    int if int holds all its values, else unsigned int if that does, else the declared type. *)
Definition bitfield_min (base : ity) (w : Z) : Z := if signed base then - 2 ^ (w - 1) else 0.
Definition bitfield_max (base : ity) (w : Z) : Z := if signed base then 2 ^ (w - 1) - 1 else 2 ^ w - 1.
Definition fits (t : ity) (lo hi : Z) : bool := (minv t <=? lo) && (hi <=? maxv t).
Definition promote_bitfield (base : ity) (w : Z) : ity :=
  let lo := bitfield_min base w in
  let hi := bitfield_max base w in
  if fits S32 lo hi then S32 else if fits U32 lo hi then U32 else base.
