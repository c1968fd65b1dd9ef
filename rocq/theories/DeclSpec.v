(** C11 6.7.2 paragraph 2: the multisets of type specifiers and the types they denote, for a compiler whose char is signed,
    int and long have 32 bits, long long has 64 and long double is double; and Microsoft's sized integers. *)
From Verif Require Import Base IntTypes DeclModel.
From Coq Require Import Permutation.

Definition allowed : list (list (list specifier) * basic_type) :=
  let I t := Arithmetic (AInt t) in
  [ ([[k_void]], Void);
    ([[k_char]], I S8);
    ([[k_signed; k_char]], I S8);
    ([[k_unsigned; k_char]], I U8);
    ([[k_short]; [k_signed; k_short]; [k_short; k_int]; [k_signed; k_short; k_int]], I S16);
    ([[k_unsigned; k_short]; [k_unsigned; k_short; k_int]], I U16);
    ([[k_int]; [k_signed]; [k_signed; k_int]], I S32);
    ([[k_unsigned]; [k_unsigned; k_int]], I U32);
    ([[k_long]; [k_signed; k_long]; [k_long; k_int]; [k_signed; k_long; k_int]], I S32);
    ([[k_unsigned; k_long]; [k_unsigned; k_long; k_int]], I U32);
    ([[k_long; k_long]; [k_signed; k_long; k_long]; [k_long; k_long; k_int]; [k_signed; k_long; k_long; k_int]], I S64);
    ([[k_unsigned; k_long; k_long]; [k_unsigned; k_long; k_long; k_int]], I U64);
    ([[k_float]], Arithmetic F32);
    ([[k_double]], Arithmetic F64);
    ([[k_long; k_double]], Arithmetic F64);
    ([[k_Bool]], I TBool);
    ([[k_int8]; [k_signed; k_int8]], I S8); ([[k_unsigned; k_int8]], I U8);
    ([[k_int16]; [k_signed; k_int16]], I S16); ([[k_unsigned; k_int16]], I U16);
    ([[k_int32]; [k_signed; k_int32]], I S32); ([[k_unsigned; k_int32]], I U32);
    ([[k_int64]; [k_signed; k_int64]], I S64); ([[k_unsigned; k_int64]], I U64) ].

Definition denotes (l : list specifier) (t : basic_type) : Prop :=
  exists alternatives l', In (alternatives, t) allowed /\ In l' alternatives /\ Permutation l l'.

(** Enumerators (6.7.2.2 paragraph 3): [previous] is the constant before, -1 at the start so that the first is 0. *)
Fixpoint numbered (previous : Z) (l : list (option Z)) (values : list Z) : Prop :=
  match l, values with
  | [], [] => True
  | e :: l, v :: values => v = match e with Some x => x | None => previous + 1 end /\ numbered v l values
  | _, _ => False
  end.
(** This compiler also accepts constants of unsigned int, as the int with the same bits. *)
Fixpoint numbered_mod (previous : Z) (l : list (option Z)) (values : list Z) : Prop :=
  match l, values with
  | [], [] => True
  | e :: l, v :: values =>
      -2^31 <= v < 2^31 /\ (exists k, v = match e with Some x => x | None => previous + 1 end + k * 2^32) /\
      numbered_mod v l values
  | _, _ => False
  end.
