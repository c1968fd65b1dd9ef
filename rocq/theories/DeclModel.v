(** Model of the type specifiers of a declaration and of the list of an enum, parse.c 7547-8500. *)
From Verif Require Import Base IntTypes.

(** The keywords; __int8 and so on are extensions. *)
Inductive specifier := k_unsigned | k_signed | k_Bool | k_char | k_short | k_int | k_long | k_int8 | k_int16 | k_int32 | k_int64
| k_float | k_double | k_void.
Inductive basic_type := Void | Arithmetic (t : aty).

(** parse.c 7566-7583 *)
Definition C_TYPE_long_long : Z := 0x80.
Definition C_TYPE (s : specifier) : Z :=
  match s with
  | k_unsigned => 0x1 | k_signed => 0x2 | k_Bool => 0x4 | k_char => 0x8 | k_short => 0x10 | k_int => 0x20 | k_long => 0x40
  | k_int8 => 0x100 | k_int16 => 0x200 | k_int32 => 0x400 | k_int64 => 0x800
  | k_float => 0x1000 | k_double => 0x2000 | k_void => 0x4000
  end.

(** parse.c 7782-7812: one keyword. *)
Definition add_specifier (c_type : Z) (s : specifier) : outcome Z :=
  match s with
  | k_long =>
      if negb (Z.land c_type C_TYPE_long_long =? 0) then Reported
      else if negb (Z.land c_type (C_TYPE k_long) =? 0) then Done (Z.lor c_type C_TYPE_long_long)
      else Done (Z.lor c_type (C_TYPE k_long))
  | _ => if negb (Z.land c_type (C_TYPE s) =? 0) then Reported else Done (Z.lor c_type (C_TYPE s))
  end.

(** parse.c 8432-8488: the cases of the switch. *)
Definition cases : list (Z * basic_type) :=
  let u := C_TYPE k_unsigned in let s := C_TYPE k_signed in let c := C_TYPE k_char in let h := C_TYPE k_short in
  let i := C_TYPE k_int in let l := C_TYPE k_long in let ll := C_TYPE_long_long in
  let I t := Arithmetic (AInt t) in
  [ (C_TYPE k_void, Void); (C_TYPE k_Bool, I TBool);
    (u, I U32); (s, I S32); (c, I S8); (h, I S16); (i, I S32); (l, I S32);
    (Z.lor h i, I S16); (Z.lor l i, I S32); (Z.lor l ll, I S64); (Z.lor (Z.lor l ll) i, I S64);
    (Z.lor u c, I U8); (Z.lor u h, I U16); (Z.lor u i, I U32); (Z.lor u l, I U32); (Z.lor (Z.lor u l) ll, I U64);
    (Z.lor (Z.lor u h) i, I U16); (Z.lor (Z.lor u l) i, I U32); (Z.lor (Z.lor (Z.lor u l) ll) i, I U64);
    (Z.lor s c, I S8); (Z.lor s h, I S16); (Z.lor s i, I S32); (Z.lor s l, I S32); (Z.lor (Z.lor s l) ll, I S64);
    (Z.lor (Z.lor s h) i, I S16); (Z.lor (Z.lor s l) i, I S32); (Z.lor (Z.lor (Z.lor s l) ll) i, I S64);
    (C_TYPE k_int8, I S8); (C_TYPE k_int16, I S16); (C_TYPE k_int32, I S32); (C_TYPE k_int64, I S64);
    (Z.lor s (C_TYPE k_int8), I S8); (Z.lor s (C_TYPE k_int16), I S16); (Z.lor s (C_TYPE k_int32), I S32); (Z.lor s (C_TYPE k_int64), I S64);
    (Z.lor u (C_TYPE k_int8), I U8); (Z.lor u (C_TYPE k_int16), I U16); (Z.lor u (C_TYPE k_int32), I U32); (Z.lor u (C_TYPE k_int64), I U64);
    (C_TYPE k_float, Arithmetic F32); (C_TYPE k_double, Arithmetic F64); (Z.lor l (C_TYPE k_double), Arithmetic F64) ].
Fixpoint switch (c_type : Z) (l : list (Z * basic_type)) : outcome basic_type :=
  match l with
  | [] => Reported
  | (c, t) :: l => if c_type =? c then Done t else switch c_type l
  end.

Fixpoint add_specifiers (c_type : Z) (l : list specifier) : outcome Z :=
  match l with [] => Done c_type | s :: l => obind (add_specifier c_type s) (fun c_type => add_specifiers c_type l) end.
(** The type of a declaration whose specifiers are these keywords (no struct, union, enum or typedef name among them;
    storage classes and qualifiers do not touch [c_type]).  No keyword at all: 'Expected a type' (8420). *)
Definition declared_type (l : list specifier) : outcome basic_type :=
  obind (add_specifiers 0 l) (fun c_type => if c_type =? 0 then Reported else switch c_type cases).

(** parse.c 195-219 [integer_literal_as_s64]: a value of a type, converted to s64. *)
Definition integer_literal_as_s64 (value : Z) : Z := wraps 64 value.

(** parse.c 8292-8340: the enumerators, each with the value of its expression if it has one.  (The value of an expression
    fits its type; the types go up to u64.) *)
Fixpoint enumerate (current_value : Z) (l : list (option Z)) : outcome (list Z) :=
  match l with
  | [] => Done []
  | e :: l =>
      let current_value := match e with Some v => integer_literal_as_s64 v | None => current_value end in
      if (-0x80000000 <=? current_value) && (current_value <=? 0x7fffffff) then
        obind (enumerate (current_value + 1) l) (fun values => Done (current_value :: values))
      else if (0x7fffffff <? current_value) && (current_value <=? 0xffffffff) then
        let current_value := wraps 32 current_value in
        obind (enumerate (current_value + 1) l) (fun values => Done (current_value :: values))
      else Reported
  end.
Definition enum_values (l : list (option Z)) : outcome (list Z) := enumerate 0 l.
