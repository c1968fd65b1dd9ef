(** Model of the compiler's handling of integer constants: the literal payload
    union, casts, promotions, conversions and constant folding (parse.c). *)
From Verif Require Import Base IntTypes CSpec.

(** ast.c [struct ir_integer_literal]: a type and a 64-bit union
    [_s8.._u64].  Literals are pushed uninitialised and only the member of the literal's
    own type is written (parse.c 4480, 4586), so the upper bits are arbitrary. *)
Record lit : Set := mklit { lty : ity; payload : Z }.

(** The C value a literal denotes. *)
Definition value (l : lit) : Z := value_of_bits (lty l) (payload l).

(** Reading and writing the [n]-bit members of the union. *)
Definition rd_s (n p : Z) : Z := wraps n p.
Definition rd_u (n p : Z) : Z := wrapu n p.
Definition wr (n p v : Z) : Z := p - wrapu n p + wrapu n v.

(** The value read by the [switch(type->size)] of parse.c 154-243, before it is
    converted to the return type. *)
Definition read_lit (l : lit) : Z :=
  if type_is_signed (lty l) then rd_s (bits (lty l)) (payload l)
  else rd_u (bits (lty l)) (payload l).

(** parse.c 149, 173, 197, 221 [integer_literal_as_{s32,u32,s64,u64}].  The 8-byte
    case of the 32-bit readers is an assert ([invalid_default_case]); callers never
    reach it because operands are no wider than the promoted type (lemma
    [readers32_no_assert] in IntProofs.v). *)
Definition integer_literal_as_s32 (l : lit) : Z := wraps 32 (read_lit l).
Definition integer_literal_as_u32 (l : lit) : Z := wrapu 32 (read_lit l).
Definition integer_literal_as_s64 (l : lit) : Z := wraps 64 (read_lit l).
Definition integer_literal_as_u64 (l : lit) : Z := wrapu 64 (read_lit l).

(** parse.c 294, 353-376 [push_cast], source [IR_integer_literal], target an
    integer type.  Line 298: same type, nothing to do. *)
Definition push_cast (t : ity) (l : lit) : lit :=
  if ity_eqb (lty l) t then l
  else match t with
       | TBool => mklit TBool (wr 8 (payload l) (b2z (negb (integer_literal_as_u64 l =? 0))))
       | _ => if type_is_signed t
              then mklit t (wrapu 64 (integer_literal_as_s64 l))
              else mklit t (integer_literal_as_u64 l)
       end.

(** parse.c 621 [perform_integer_promotions] *)
Definition perform_integer_promotions (t : ity) : ity :=
  match t with
  | TBool => S32 | S8 => S32 | U8 => S32 | S16 => S32 | U16 => S32
  | _ => t
  end.

(** parse.c 699-739 [perform_usual_arithmetic_conversions]; [None] is the final
    [invalid_code_path]. *)
Definition usual_conversions_int (lhs rhs : ity) : option ity :=
  let lhs := perform_integer_promotions lhs in
  let rhs := perform_integer_promotions rhs in
  if ity_eqb lhs rhs then Some lhs
  else match lhs, rhs with
       | S32, S64 => Some S64 | S64, S32 => Some S64
       | U32, U64 => Some U64 | U64, U32 => Some U64
       | U32, S32 => Some U32 | S32, U32 => Some U32
       | U64, S32 => Some U64 | S32, U64 => Some U64
       | U64, S64 => Some U64 | S64, U64 => Some U64
       | U32, S64 => Some S64 | S64, U32 => Some S64
       | S32, _ => Some U32 | _, S32 => Some U32
       | S64, _ => Some U64 | _, S64 => Some U64
       | _, _ => None
       end.

Definition perform_usual_arithmetic_conversions (lhs rhs : aty) : option aty :=
  match lhs, rhs with
  | F64, _ => Some F64
  | _, F64 => Some F64
  | F32, _ => Some F32
  | _, F32 => Some F32
  | AInt a, AInt b => option_map AInt (usual_conversions_int a b)
  end.

(** parse.c 633-661 [maybe_insert_cast_from_special_int_to_int]: the type of a
    bit-field operand with declared type [base] and [w] bits once it is read. *)
Definition bitfield_operand_type (base : ity) (w : Z) : ity :=
  if w <? 32 then S32
  else if w =? 32 then (if type_is_signed base then S32 else U32)
  else base.

(** parse.c 663 [perform_integer_promotion_on_literal] *)
Definition perform_integer_promotion_on_literal (l : lit) : lit :=
  if size (lty l) >=? 4 then l
  else mklit S32 (wrapu 64 (integer_literal_as_s64 l)).

(** One instance of the macro of parse.c 2957-2991 for an [n]-bit type.  Signed
    overflow of + - * wraps (the compiler is built by itself or by MSVC, both
    wrap); the hardware division traps on [MIN / -1]. *)
Inductive fold_op : Set := FArith (o : arith_op) | FCmp (o : cmp_op).

Definition trapping_division (sg : bool) (n x y : Z) : bool :=
  sg && (x =? - 2 ^ (n - 1)) && (y =? -1).

Definition fold_at (sg : bool) (n : Z) (o : fold_op) (lhs_val rhs_val p : Z) : outcome Z :=
  match o with
  | FArith OMul => Done (wr n p (lhs_val * rhs_val))
  | FArith ODiv =>
      if rhs_val =? 0 then Reported
      else if trapping_division sg n lhs_val rhs_val then Crash
      else Done (wr n p (Z.quot lhs_val rhs_val))
  | FArith OMod =>
      if rhs_val =? 0 then Reported
      else if trapping_division sg n lhs_val rhs_val then Crash
      else Done (wr n p (Z.rem lhs_val rhs_val))
  | FArith OAdd => Done (wr n p (lhs_val + rhs_val))
  | FArith OSub => Done (wr n p (lhs_val - rhs_val))
  | FCmp OEq => Done (b2z (lhs_val =? rhs_val))
  | FCmp ONe => Done (b2z (negb (lhs_val =? rhs_val)))
  | FCmp OGe => Done (b2z (rhs_val <=? lhs_val))
  | FCmp OLe => Done (b2z (lhs_val <=? rhs_val))
  | FCmp OGt => Done (b2z (rhs_val <? lhs_val))
  | FCmp OLt => Done (b2z (lhs_val <? rhs_val))
  end.

(** parse.c 2947-3029 [perform_integer_operation]; the computation of
    [defined_type] (only used for warnings) is left out. *)
Definition perform_integer_operation (o : fold_op) (l r : lit) : outcome lit :=
  match usual_conversions_int (lty l) (lty r) with
  | Some U32 => obind (fold_at false 32 o (integer_literal_as_u32 l) (integer_literal_as_u32 r) (payload l))
                      (fun p => Done (mklit U32 p))
  | Some S32 => obind (fold_at true 32 o (integer_literal_as_s32 l) (integer_literal_as_s32 r) (payload l))
                      (fun p => Done (mklit S32 p))
  | Some U64 => obind (fold_at false 64 o (integer_literal_as_u64 l) (integer_literal_as_u64 r) (payload l))
                      (fun p => Done (mklit U64 p))
  | Some S64 => obind (fold_at true 64 o (integer_literal_as_s64 l) (integer_literal_as_s64 r) (payload l))
                      (fun p => Done (mklit S64 p))
  | _ => Crash
  end.

(** parse.c 6275-6283, 6349-6356: a folded comparison gets type int. *)
Definition fold_cmp (o : cmp_op) (l r : lit) : outcome lit :=
  obind (perform_integer_operation (FCmp o) l r) (fun x => Done (mklit S32 (payload x))).

Definition fold_arith (o : arith_op) (l r : lit) : outcome lit :=
  perform_integer_operation (FArith o) l r.

(** parse.c 6408-6425, 6457-6475, 6505-6523: & ^ | of two literals. *)
Definition fold_bit (o : bit_op) (l r : lit) : outcome lit :=
  let a := integer_literal_as_u64 l in
  let b := integer_literal_as_u64 r in
  match usual_conversions_int (lty l) (lty r) with
  | None => Crash
  | Some t => Done (mklit t (bit_sem o a b))
  end.

(** parse.c 6166-6238: shifts of two literals.  [push_cast] to the promoted type
    comes first; then the negative-amount check, the upper bound check (which is
    [>], not [>=], line 6197) and the shift by the low byte of the amount.  A
    shift by the full width is undefined in C: [Crash]. *)
Definition fold_shift (left : bool) (l0 r0 : lit) : outcome lit :=
  let l := push_cast (perform_integer_promotions (lty l0)) l0 in
  let r := push_cast (perform_integer_promotions (lty r0)) r0 in
  if type_is_signed (lty r) && (read_lit r <? 0) then Reported
  else
    let value := integer_literal_as_u64 r in
    if value >? size (lty l) * 8 then Reported
    else
      let n := bits (lty l) in
      let amount := rd_u 8 (payload r) in
      if amount >=? n then Crash
      else
        let x := read_lit l in
        if left then Done (mklit (lty l) (wr n (payload l) (Z.shiftl x amount)))
        else Done (mklit (lty l) (wr n (payload l) (Z.shiftr x amount))).

(** parse.c 5755-5765, 5782-5793, 5820-5828, 5849-5870: unary ~ ! + - on literals.
    Negation writes the member of the promoted size. *)
Definition fold_un (o : un_op) (l : lit) : outcome lit :=
  match o with
  | OLNot => Done (mklit S32 (b2z (integer_literal_as_u64 l =? 0)))
  | OPlus => Done (perform_integer_promotion_on_literal l)
  | OCompl => let l := perform_integer_promotion_on_literal l in
              Done (mklit (lty l) (wrapu 64 (Z.lnot (payload l))))
  | ONeg => let l := perform_integer_promotion_on_literal l in
            let n := bits (lty l) in
            Done (mklit (lty l) (wr n (payload l) (- rd_s n (payload l))))
  end.

(** parse.c 6591-6603 and 6683-6695: && and || of two literals. *)
Definition fold_land (l r : lit) : outcome lit :=
  Done (mklit S32 (b2z (negb (integer_literal_as_u64 l =? 0) && negb (integer_literal_as_u64 r =? 0)))).
Definition fold_lor (l r : lit) : outcome lit :=
  Done (mklit S32 (b2z (negb (integer_literal_as_u64 l =? 0) || negb (integer_literal_as_u64 r =? 0)))).

(** parse.c 7349-7385 and 6862-6906: ?: with a constant condition and two integer
    operands: the chosen operand is cast to the common type. *)
Definition fold_cond (c a b : lit) : outcome lit :=
  let is_true := negb (integer_literal_as_u64 c =? 0) in
  match usual_conversions_int (lty a) (lty b) with
  | None => Crash
  | Some t => Done (push_cast t (if is_true then a else b))
  end.

(** The reductions performed on an expression built from literals only: operands
    are reduced left to right, the first error ends the expression
    ([context->should_exit_statement]). *)
Fixpoint fold (e : cexpr) : outcome lit :=
  match e with
  | CLit t p => Done (mklit t p)
  | CUn o a => obind (fold a) (fold_un o)
  | CCast t a => obind (fold a) (fun l => Done (push_cast t l))
  | CArith o a b => obind (fold a) (fun l => obind (fold b) (fold_arith o l))
  | CCmp o a b => obind (fold a) (fun l => obind (fold b) (fold_cmp o l))
  | CBit o a b => obind (fold a) (fun l => obind (fold b) (fold_bit o l))
  | CShl a b => obind (fold a) (fun l => obind (fold b) (fold_shift true l))
  | CShr a b => obind (fold a) (fun l => obind (fold b) (fold_shift false l))
  | CLAnd a b => obind (fold a) (fun l => obind (fold b) (fold_land l))
  | CLOr a b => obind (fold a) (fun l => obind (fold b) (fold_lor l))
  | CCond c a b => obind (fold c) (fun z => obind (fold a) (fun x => obind (fold b) (fold_cond z x)))
  end.
