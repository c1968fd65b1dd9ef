(** The integer and floating point types the compiler distinguishes.

    The type objects are compared by address in the C code
    ([globals.typedef_s32] etc., main.c 540-557); here they are constructors.
    [long] and [int] share one object, as do [unsigned long] and [unsigned]
    (LLP64; parse.c 8430-8495). *)
From Verif Require Import Base.

Inductive ity : Set := TBool | S8 | U8 | S16 | U16 | S32 | U32 | S64 | U64.
Inductive aty : Set := AInt (t : ity) | F32 | F64.

Definition ity_eqb (a b : ity) : bool :=
  match a, b with
  | TBool, TBool | S8, S8 | U8, U8 | S16, S16 | U16, U16
  | S32, S32 | U32, U32 | S64, S64 | U64, U64 => true
  | _, _ => false
  end.

Lemma ity_eqb_spec : forall a b, reflect (a = b) (ity_eqb a b).
Proof. destruct a, b; simpl; constructor; congruence. Qed.

(** Size in bytes ([ast_type.size]). *)
Definition size (t : ity) : Z :=
  match t with
  | TBool | S8 | U8 => 1
  | S16 | U16 => 2
  | S32 | U32 => 4
  | S64 | U64 => 8
  end.

Definition bits (t : ity) : Z := 8 * size t.

(** main.c 612 [type_is_signed] *)
Definition type_is_signed (t : ity) : bool :=
  match t with S8 | S16 | S32 | S64 => true | _ => false end.
