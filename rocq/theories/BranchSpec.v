(** C44: the value of integer expressions with [&&], [||] and [?:] (C11 6.5.13-6.5.15). *)
From Coq Require Import ZArith Bool List.
From Verif Require Import IntTypes CSpec LowerSpec.
Open Scope Z_scope.

Inductive bexpr : Set :=
| BLit (t : ity) (payload : Z)
| BVar (x : nat)
| BUn (o : un_op) (e : bexpr)
| BCast (t : ity) (e : bexpr)
| BArith (o : arith_op) (a b : bexpr)
| BCmp (o : cmp_op) (a b : bexpr)
| BBit (o : bit_op) (a b : bexpr)
| BShl (a b : bexpr)
| BShr (a b : bexpr)
| BComma (a b : bexpr)
| BAnd (a b : bexpr)
| BOr (a b : bexpr)
| BCond (c a b : bexpr).

(** The type of an expression does not depend on values. *)
Fixpoint btype (ty : typing) (e : bexpr) : ity :=
  match e with
  | BLit t _ => t
  | BVar x => ty x
  | BUn OLNot _ => S32
  | BUn _ a => promote (btype ty a)
  | BCast t _ => t
  | BArith _ a b | BBit _ a b => usual_int (btype ty a) (btype ty b)
  | BCmp _ _ _ | BAnd _ _ | BOr _ _ => S32
  | BShl a _ | BShr a _ => promote (btype ty a)
  | BComma _ b => btype ty b
  | BCond _ a b => usual_int (btype ty a) (btype ty b)
  end.

(** [None]: no defined value.  The right operand of [&&] and [||] and the branch of [?:] that is
    not selected are not evaluated: they need not have a value. *)
Fixpoint beval (ty : typing) (env : values) (e : bexpr) : option (ity * Z) :=
  match e with
  | BLit t p => Some (t, value_of_bits t p)
  | BVar x => Some (ty x, env x)
  | BUn o a => bind (beval ty env a) (fun x => Some (un_sem o (fst x) (snd x)))
  | BCast t a => bind (beval ty env a) (fun x => Some (t, convert t (snd x)))
  | BArith o a b => bind (beval ty env a) (fun x => bind (beval ty env b) (fun y => arith_value o x y))
  | BCmp o a b =>
      bind (beval ty env a) (fun x => bind (beval ty env b) (fun y =>
        let t := usual_int (fst x) (fst y) in
        Some (S32, cmp_sem o (convert t (snd x)) (convert t (snd y)))))
  | BBit o a b => bind (beval ty env a) (fun x => bind (beval ty env b) (fun y => bit_value o x y))
  | BShl a b => bind (beval ty env a) (fun x => bind (beval ty env b) (fun y => shl_value x y))
  | BShr a b => bind (beval ty env a) (fun x => bind (beval ty env b) (fun y => shr_value x y))
  | BComma a b => bind (beval ty env a) (fun _ => beval ty env b)
  | BAnd a b =>
      bind (beval ty env a) (fun x =>
        if snd x =? 0 then Some (S32, 0)
        else bind (beval ty env b) (fun y => Some (S32, if snd y =? 0 then 0 else 1)))
  | BOr a b =>
      bind (beval ty env a) (fun x =>
        if snd x =? 0 then bind (beval ty env b) (fun y => Some (S32, if snd y =? 0 then 0 else 1))
        else Some (S32, 1))
  | BCond c a b =>
      bind (beval ty env c) (fun x =>
        bind (if snd x =? 0 then beval ty env b else beval ty env a) (fun y =>
          let t := usual_int (btype ty a) (btype ty b) in Some (t, convert t (snd y))))
  end.

(** The variables of an expression are among the first [n]. *)
Fixpoint variables_below (n : nat) (e : bexpr) : Prop :=
  match e with
  | BLit _ _ => True
  | BVar x => (x < n)%nat
  | BUn _ a | BCast _ a => variables_below n a
  | BArith _ a b | BCmp _ a b | BBit _ a b | BShl a b | BShr a b | BComma a b | BAnd a b | BOr a b =>
      variables_below n a /\ variables_below n b
  | BCond c a b => variables_below n c /\ variables_below n a /\ variables_below n b
  end.

(** [_Bool] literals are 0 or 1. *)
Fixpoint blits_ok (e : bexpr) : Prop :=
  match e with
  | BLit t p => object_value t (value_of_bits t p)
  | BVar _ => True
  | BUn _ a | BCast _ a => blits_ok a
  | BArith _ a b | BCmp _ a b | BBit _ a b | BShl a b | BShr a b | BComma a b | BAnd a b | BOr a b =>
      blits_ok a /\ blits_ok b
  | BCond c a b => blits_ok c /\ blits_ok a /\ blits_ok b
  end.

(** What the compiler may treat as a constant. *)
Fixpoint bconstant (e : bexpr) : bool :=
  match e with
  | BLit _ _ => true
  | BVar _ | BComma _ _ => false
  | BUn _ a | BCast _ a => bconstant a
  | BArith _ a b | BCmp _ a b | BBit _ a b | BShl a b | BShr a b | BAnd a b | BOr a b => bconstant a && bconstant b
  | BCond c a b => bconstant c && (bconstant a || bconstant b)
  end.

(** No comma operator whose right operand is a constant. *)
Fixpoint no_constant_after_comma (e : bexpr) : Prop :=
  match e with
  | BLit _ _ | BVar _ => True
  | BUn _ a | BCast _ a => no_constant_after_comma a
  | BArith _ a b | BCmp _ a b | BBit _ a b | BShl a b | BShr a b | BAnd a b | BOr a b =>
      no_constant_after_comma a /\ no_constant_after_comma b
  | BComma a b => no_constant_after_comma a /\ no_constant_after_comma b /\ bconstant b = false
  | BCond c a b => no_constant_after_comma c /\ no_constant_after_comma a /\ no_constant_after_comma b
  end.

(** Every part has a value, evaluated or not: nothing in the expression can be diagnosed. *)
Fixpoint all_defined (ty : typing) (env : values) (e : bexpr) : Prop :=
  beval ty env e <> None /\
  match e with
  | BLit _ _ | BVar _ => True
  | BUn _ a | BCast _ a => all_defined ty env a
  | BArith _ a b | BCmp _ a b | BBit _ a b | BShl a b | BShr a b | BComma a b | BAnd a b | BOr a b =>
      all_defined ty env a /\ all_defined ty env b
  | BCond c a b => all_defined ty env c /\ all_defined ty env a /\ all_defined ty env b
  end.

(** The memory holds the values of the first [n] variables. *)
Definition holds_below (n : nat) (ty : typing) (env : values) (m : nat -> Z) : Prop :=
  forall x, (x < n)%nat -> object_value (ty x) (env x) /\ m x = env x mod 2 ^ width (ty x).
