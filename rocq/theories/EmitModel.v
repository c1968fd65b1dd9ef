(** Model of the code generator for integer expressions: emit_x64.c 690-2180 and the
    integer cases of [emit_code_for_function__internal] (2563-4690).

    Emit locations live in an arena and are changed in place through pointers (a
    spilled register turns the location that owned it into a stack slot), so they are
    modelled as numbered entries of a heap.  Only general purpose registers are modelled:
    no floating point, no rip-relative operands, no function calls, no inline assembler.
    A failed assert, a freed or invalid location, and an exhausted recursion bound are
    [Crash]. *)
From Verif Require Import Base EncModel.

(** emit_x64.c 700-721 [enum comp_condition] *)
Inductive comp : Set :=
| COMP_none | COMP_equals | COMP_unequals
| COMP_bigger_equals | COMP_smaller_equals | COMP_bigger | COMP_smaller
| COMP_bigger_equals_signed | COMP_smaller_equals_signed | COMP_bigger_signed | COMP_smaller_signed
| COMP_positive | COMP_negative.

(** emit_x64.c 736-772 [struct emit_location] without the xmm and inline-assembler parts;
    [base] and [index] are heap indices.  [value] is an [smm]. *)
Inductive loc_state : Set :=
| Loaded (r : Z)
| Immediate (value : Z)
| RegRel (base : nat) (index : option nat) (log_scale offset : Z)
| Conditional (c : comp)
| Freed.
Record location : Set := mkloc {
  l_state : loc_state; l_size : Z; l_prevent_spilling : Z; l_prevent_freeing : Z }.

(** The parts of [struct context] the code generator uses: the locations, the gpr
    [emit_location_map], [rolling_index], [temporary_stack_allocator], the emitted code, and
    the jumps and labels of [context->jump_labels]. *)
Record emitter : Type := mkemitter {
  heap : list location;
  rmap : Z -> option nat;
  rolling : nat;
  tsa : Z;
  code : list Z;
  jumps : list (nat * Z);          (* label, position of the four displacement bytes *)
  labels : list (nat * Z) }.       (* label, position *)

Definition M (A : Type) : Type := emitter -> outcome (A * emitter).
Definition ret {A} (a : A) : M A := fun s => Done (a, s).
Definition bind {A B} (x : M A) (f : A -> M B) : M B :=
  fun s => obind (x s) (fun '(a, s') => f a s').
Definition crash {A} : M A := fun _ => Crash.
Definition assertion (b : bool) : M unit := if b then ret tt else crash.
Notation "x <- e ;; f" := (bind e (fun x => f)) (at level 61, e at next level, right associativity).
Notation "e ;;; f" := (bind e (fun _ => f)) (at level 61, right associativity).

Definition get_state : M emitter := fun s => Done (s, s).

Definition get (id : nat) : M location := fun s =>
  match nth_error (heap s) id with Some l => Done (l, s) | None => Crash end.
Fixpoint replace_nth {A} (n : nat) (x : A) (l : list A) : list A :=
  match l, n with
  | [], _ => []
  | _ :: t, O => x :: t
  | h :: t, S n => h :: replace_nth n x t
  end.
Definition in_heap (h : list location) (s : emitter) : emitter :=
  mkemitter h (rmap s) (rolling s) (tsa s) (code s) (jumps s) (labels s).
Definition in_map (f : Z -> option nat) (s : emitter) : emitter :=
  mkemitter (heap s) f (rolling s) (tsa s) (code s) (jumps s) (labels s).
Definition in_rolling (n : nat) (s : emitter) : emitter :=
  mkemitter (heap s) (rmap s) n (tsa s) (code s) (jumps s) (labels s).
Definition in_tsa (t : Z) (s : emitter) : emitter :=
  mkemitter (heap s) (rmap s) (rolling s) t (code s) (jumps s) (labels s).
Definition in_code (c : list Z) (s : emitter) : emitter :=
  mkemitter (heap s) (rmap s) (rolling s) (tsa s) c (jumps s) (labels s).
Definition in_jumps (j l : list (nat * Z)) (s : emitter) : emitter :=
  mkemitter (heap s) (rmap s) (rolling s) (tsa s) (code s) j l.

Definition set (id : nat) (l : location) : M unit := fun s =>
  Done (tt, in_heap (replace_nth id l (heap s)) s).
Definition new (l : location) : M nat := fun s =>
  Done (length (heap s), in_heap (heap s ++ [l]) s).
Definition set_map (r : Z) (x : option nat) : M unit := fun s =>
  Done (tt, in_map (fun q => if q =? r then x else rmap s q) s).
(** emit_x64.c 451 [emit_bytes]: append to the emit arena. *)
Definition out (bs : list Z) : M unit := fun s =>
  Done (tt, in_code (code s ++ bs) s).

Definition modify (id : nat) (f : location -> location) : M unit := l <- get id ;; set id (f l).
Definition with_state (x : loc_state) (l : location) : location :=
  mkloc x (l_size l) (l_prevent_spilling l) (l_prevent_freeing l).
Definition with_size (x : Z) (l : location) : location :=
  mkloc (l_state l) x (l_prevent_spilling l) (l_prevent_freeing l).
Definition with_ps (d : Z) (l : location) : location :=
  mkloc (l_state l) (l_size l) (l_prevent_spilling l + d) (l_prevent_freeing l).
Definition with_pf (d : Z) (l : location) : location :=
  mkloc (l_state l) (l_size l) (l_prevent_spilling l) (l_prevent_freeing l + d).

Definition is_size (n : Z) : bool := (n =? 1) || (n =? 2) || (n =? 4) || (n =? 8).

(** emit_x64.c 4720: [context->register_bp] is created before any other location. *)
Definition register_bp : nat := 0%nat.

(** emit_x64.c 774 [emit_location_loaded] *)
Definition emit_location_loaded (r size : Z) : M nat := fun s =>
  match rmap s r with
  | Some _ => Crash
  | None => (id <- new (mkloc (Loaded r) size 0 0) ;; set_map r (Some id) ;;; ret id) s
  end.
(** emit_x64.c 799 [emit_location_conditional] *)
Definition emit_location_conditional (c : comp) : M nat := new (mkloc (Conditional c) 4 0 0).
(** emit_x64.c 811-828 [emit_location_register_relative] *)
Definition emit_location_register_relative (base : nat) (index : option nat) (offset size : Z) : M nat :=
  new (mkloc (RegRel base index 0 offset) size 0 0).
(** emit_x64.c 834 [emit_location_stack_relative] *)
Definition emit_location_stack_relative (offset size : Z) : M nat :=
  emit_location_register_relative register_bp None (- offset) size.
(** emit_x64.c 839 [emit_location_immediate]: a [u64] stored in an [smm]. *)
Definition emit_location_immediate (value size : Z) : M nat :=
  new (mkloc (Immediate (wraps 64 value)) size 0 0).

Section Function.
(** [current_function->stack_space_needed], the bytes used by the declarations. *)
Variable stack_space : Z.

Definition align_up (x a : Z) : Z := (x + (a - 1)) / a * a.

(** emit_x64.c 850 [emit_allocate_temporary_stack_location]: the offset of the new slot
    (the high water mark is not modelled). *)
Definition allocate_temporary (size alignment : Z) : M Z := fun s =>
  let t := align_up (tsa s) alignment + size in
  Done (- (stack_space + t), in_tsa t s).

(** emit_x64.c 860 [spill_register] *)
Definition spill_register (r : Z) : M unit := fun s =>
  match rmap s r with
  | None => Crash
  | Some id =>
      (l <- get id ;;
       assertion (l_prevent_spilling l =? 0) ;;;
       assertion (is_size (l_size l)) ;;;
       offset <- allocate_temporary (l_size l) (l_size l) ;;
       set id (mkloc (RegRel register_bp None 0 offset) (l_size l) 0 (l_prevent_freeing l)) ;;;
       set_map r None ;;;
       out (emit_spill_store r (l_size l) offset)) s
  end.

(** emit_x64.c 931 [allocate_specific_register] *)
Definition allocate_specific_register (r : Z) : M Z := fun s =>
  match rmap s r with
  | Some _ => (spill_register r ;;; ret r) s
  | None => Done (r, s)
  end.

(** emit_x64.c 956 [volatile_general_purpose_registers] *)
Definition volatile : list Z := [1; 2; 8; 9; 0; 10; 11].

(** The search loops of [allocate_register] (993-1033): first from [at] up, then from 0. *)
Fixpoint first_reg (ok : Z -> bool) (rs : list Z) : option Z :=
  match rs with
  | [] => None
  | r :: rest => if ok r then Some r else first_reg ok rest
  end.
Definition search_order (at_ : nat) : list Z := skipn at_ volatile ++ firstn at_ volatile.

(** emit_x64.c 970 [allocate_register].  All registers locked is an internal error. *)
Definition allocate_register : M Z := fun s =>
  let at_ := rolling s in
  let s := in_rolling (if (7 <=? S at_)%nat then 0%nat else S at_) s in
  match first_reg (fun r => match rmap s r with None => true | Some _ => false end) (search_order at_) with
  | Some r => Done (r, s)
  | None =>
      match first_reg (fun r => match rmap s r with
                                | None => false
                                | Some id => match nth_error (heap s) id with
                                             | Some l => l_prevent_spilling l =? 0
                                             | None => false
                                             end
                                end) (search_order at_) with
      | Some r => (spill_register r ;;; ret r) s
      | None => Crash
      end
  end.

(** emit_x64.c 1050 [spill_all_allocated_volatile_registers] *)
Fixpoint spill_all (rs : list Z) : M unit := fun s =>
  match rs with
  | [] => Done (tt, s)
  | r :: rest =>
      match rmap s r with
      | Some _ => (spill_register r ;;; spill_all rest) s
      | None => spill_all rest s
      end
  end.

(** emit_x64.c 1066 [free_emit_location]; [fuel] bounds the nesting of bases. *)
Fixpoint free_loc (fuel : nat) (id : nat) : M unit :=
  match fuel with
  | O => crash
  | S fuel =>
      if Nat.eqb id register_bp then ret tt else
      l <- get id ;;
      match l_state l with
      | Freed => crash
      | st =>
          if negb (l_prevent_freeing l =? 0) || negb (l_prevent_spilling l =? 0) then ret tt
          else
            match st with
            | Loaded r => set_map r None
            | RegRel base index _ _ =>
                free_loc fuel base ;;;
                match index with Some i => free_loc fuel i | None => ret tt end
            | _ => ret tt
            end ;;;
            l <- get id ;; set id (with_state Freed l)
      end
  end.
Definition free_emit_location (id : nat) : M unit := fun s => free_loc (S (length (heap s))) id s.

(** emit_x64.c 1102, 1109 [emit_location_prevent_freeing], [emit_location_allow_freeing] *)
Definition prevent_freeing (id : nat) : M unit := modify id (with_pf 1).
Definition allow_freeing (id : nat) : M unit :=
  l <- get id ;; assertion (0 <? l_prevent_freeing l) ;;; set id (with_pf (-1) l).

(** emit_x64.c 1116 [emit_location_prevent_spilling]; [load] is [emit_load_gpr]. *)
Definition prevent_spilling_with (load : nat -> M nat) (id : nat) : M unit :=
  modify id (with_ps 1) ;;;
  l <- get id ;;
  match l_state l with
  | RegRel base index sc off =>
      base' <- load base ;;
      modify id (fun l => match l_state l with
                          | RegRel _ i sc off => with_state (RegRel base' i sc off) l
                          | _ => l end) ;;;
      modify base' (with_ps 1) ;;;
      match index with
      | None => ret tt
      | Some i =>
          i' <- load i ;;
          modify id (fun l => match l_state l with
                              | RegRel b _ sc off => with_state (RegRel b (Some i') sc off) l
                              | _ => l end) ;;;
          modify i' (with_ps 1)
      end
  | _ => ret tt
  end.

Definition unlock (id : nat) : M unit :=
  l <- get id ;; assertion (0 <? l_prevent_spilling l) ;;; set id (with_ps (-1) l).

(** emit_x64.c 1128 [emit_location_allow_spilling] *)
Definition allow_spilling (id : nat) : M unit :=
  unlock id ;;;
  l <- get id ;;
  match l_state l with
  | RegRel base index _ _ =>
      unlock base ;;;
      match index with Some i => unlock i | None => ret tt end
  | _ => ret tt
  end.

Definition loaded_register (id : nat) : M Z :=
  l <- get id ;; match l_state l with Loaded r => ret r | _ => crash end.

Definition lift {A} (x : outcome A) : M A := fun s => obind x (fun a => Done (a, s)).

(** emit_x64.c 1157 [emit_register_relative__internal]: make sure base and index are
    loaded, then encode (EncModel.v).  [imm]: size and value. *)
Definition register_relative_with (load : nat -> M nat) (p : prefixes) (op : list Z) (other_reg : Z)
           (id : nat) (imm : option (Z * Z)) : M unit :=
  l <- get id ;;
  match l_state l with
  | RegRel _ _ _ _ =>
      assertion (is_size (l_size l)) ;;;
      prevent_spilling_with load id ;;;
      allow_spilling id ;;;
      l <- get id ;;
      match l_state l with
      | RegRel base index sc off =>
          b <- loaded_register base ;;
          i <- match index with None => ret INVALID_REGISTER | Some i => loaded_register i end ;;
          assertion (match imm with Some (n, _) => n <=? l_size l | None => true end) ;;;
          bs <- lift (emit_register_relative p op other_reg (mkmem b i sc off false (l_size l)) imm) ;;
          out (fst bs)
      | _ => crash
      end
  | _ => crash
  end.

(** emit_x64.c 1130 [emit_register_op__internal], 1136 [emit_reg_extended_op],
    1142 [emit_register_register] *)
Definition emit_op (p : prefixes) (op : list Z) (reg regm size : Z) : M unit :=
  bs <- lift (emit_register_op p op reg regm size) ;; out bs.
Definition emit_reg_extended_op (p : prefixes) (op : list Z) (ext : Z) (id : nat) : M unit :=
  l <- get id ;;
  match l_state l with Loaded r => emit_op p op ext r (l_size l) | _ => crash end.
Definition emit_register_register (p : prefixes) (op : list Z) (a b : nat) : M unit :=
  la <- get a ;; lb <- get b ;;
  match l_state la, l_state lb with
  | Loaded ra, Loaded rb =>
      assertion (l_size la =? l_size lb) ;;; emit_op p op ra rb (l_size la)
  | _, _ => crash
  end.

(** emit_x64.c 1362-1376: SETcc opcode of a condition. *)
Definition set_opcode (c : comp) : outcome Z :=
  match c with
  | COMP_equals => Done 0x94 | COMP_unequals => Done 0x95
  | COMP_smaller_equals => Done 0x96 | COMP_smaller => Done 0x92
  | COMP_bigger_equals => Done 0x93 | COMP_bigger => Done 0x97
  | COMP_smaller_signed => Done 0x9C | COMP_smaller_equals_signed => Done 0x9E
  | COMP_bigger_signed => Done 0x9F | COMP_bigger_equals_signed => Done 0x9D
  | COMP_positive => Done 0x99 | COMP_negative => Done 0x98
  | COMP_none => Crash
  end.

(** emit_x64.c 1264 [emit_load_into_specific_gpr]; sizes other than 1, 2, 4, 8 are not
    modelled.  Note that the non-zero immediate and the memory operand are moved into the
    register before its previous owner is spilled. *)
Definition load_into_specific_with (load : nat -> M nat) (id : nat) (r : Z) : M nat :=
  l <- get id ;;
  assertion (is_size (l_size l)) ;;;
  match l_state l with
  | Loaded r0 =>
      if r0 =? r then ret id else
      allocate_specific_register r ;;;
      into <- emit_location_loaded r (l_size l) ;;
      emit_register_register no_prefix (one_byte_opcode (if l_size l =? 1 then 0x8A else 0x8B)) into id ;;;
      free_emit_location id ;;;
      ret into
  | Immediate value =>
      if value =? 0 then
        allocate_specific_register r ;;;
        into <- emit_location_loaded r (l_size l) ;;
        emit_register_register no_prefix (one_byte_opcode 0x33) into into ;;;
        ret into
      else
        out (emit_mov_immediate r (l_size l) value) ;;;
        allocate_specific_register r ;;;
        emit_location_loaded r (l_size l)
  | RegRel _ _ _ _ =>
      register_relative_with load no_prefix (one_byte_opcode (if l_size l =? 1 then 0x8A else 0x8B)) r id None ;;;
      free_emit_location id ;;;
      allocate_specific_register r ;;;
      emit_location_loaded r (l_size l)
  | Conditional c =>
      assertion ((l_size l =? 4) || (l_size l =? 1)) ;;;
      o <- lift (set_opcode c) ;;
      allocate_specific_register r ;;;
      into <- emit_location_loaded r (l_size l) ;;
      emit_reg_extended_op no_prefix (two_byte_opcode o) 0 into ;;;
      (if l_size l =? 1 then ret tt
       else emit_register_register no_prefix (two_byte_opcode 0xB6) into into) ;;;
      ret into
  | Freed => crash
  end.

(** emit_x64.c 1415 [emit_load_gpr]; [fuel] bounds the nesting of bases. *)
Fixpoint load_gpr (fuel : nat) (id : nat) : M nat :=
  match fuel with
  | O => crash
  | S fuel =>
      l <- get id ;;
      match l_state l with
      | Loaded _ => ret id
      | _ => r <- allocate_register ;; load_into_specific_with (load_gpr fuel) id r
      end
  end.
Definition emit_load_gpr (id : nat) : M nat := fun s => load_gpr (S (length (heap s))) id s.
Definition emit_load_into_specific_gpr : nat -> Z -> M nat := load_into_specific_with emit_load_gpr.
Definition prevent_spilling : nat -> M unit := prevent_spilling_with emit_load_gpr.
Definition emit_register_relative_register (p : prefixes) (op : list Z) (reg : Z) (id : nat) : M unit :=
  register_relative_with emit_load_gpr p op reg id None.
Definition emit_register_relative_immediate (p : prefixes) (op : list Z) (ext : Z) (id : nat) (size value : Z) : M unit :=
  register_relative_with emit_load_gpr p op ext id (Some (size, value)).

(** emit_x64.c 1436 [emit_load_address]; the caller has allocated [r]. *)
Definition emit_load_address (id : nat) (r : Z) : M nat :=
  l <- get id ;;
  match l_state l with
  | RegRel _ _ _ _ =>
      modify id (with_size 8) ;;;
      loaded <- emit_location_loaded r 8 ;;
      prevent_spilling loaded ;;;
      emit_register_relative_register no_prefix (one_byte_opcode 0x8D) r id ;;;
      allow_spilling loaded ;;;
      modify id (with_size (l_size l)) ;;;
      ret loaded
  | _ => crash
  end.

(** emit_x64.c 1546 [emit_store], integers of 1, 2, 4 or 8 bytes. *)
Definition emit_store (dest source : nat) : M unit :=
  d <- get dest ;; s <- get source ;;
  assertion (match l_state d with RegRel _ _ _ _ => true | _ => false end && is_size (l_size s)
             && (l_size s <=? l_size d)) ;;;
  let store_loaded source :=
    r <- loaded_register source ;;
    emit_register_relative_register no_prefix (one_byte_opcode (if l_size d =? 1 then 0x88 else 0x89)) r dest ;;;
    free_emit_location source in
  match l_state s with
  | Loaded _ => store_loaded source
  | RegRel _ _ _ _ | Conditional _ => source' <- emit_load_gpr source ;; store_loaded source'
  | Immediate v =>
      if l_size s =? 8 then source' <- emit_load_gpr source ;; store_loaded source'
      else
        modify source (with_size (l_size d)) ;;;
        emit_register_relative_immediate no_prefix (one_byte_opcode (if l_size d =? 1 then 0xC6 else 0xC7))
                                         0 dest (l_size d) v ;;;
        free_emit_location source
  | Freed => crash
  end.

(** emit_x64.c 1616 [emit_binary_op__internal].  [ext], [code8], [code]: the opcode
    extension for immediates and the register opcodes. *)
Definition emit_binary_op (p : prefixes) (lhs rhs : nat) (size : Z) (is_signed : bool) (ext code8 opcode : Z) : M nat :=
  dest <- emit_load_gpr lhs ;;
  prevent_spilling dest ;;;
  d <- get dest ;; s <- get rhs ;;
  let with_loaded source :=
    ls <- get source ;;
    assertion (l_size d =? l_size ls) ;;;
    emit_register_register p (one_byte_opcode (if l_size ls =? 1 then code8 else opcode)) dest source ;;;
    ret source in
  source <- match l_state s with
            | Immediate v =>
                if (l_size s =? 8) || ((l_size s =? 4) && negb is_signed && (2147483647 <? v)) then
                  source <- emit_load_gpr rhs ;;
                  modify source (with_size (l_size d)) ;;;
                  with_loaded source
                else
                  let small := (l_size s =? 1) && (is_signed || (v <? 127)) in
                  (if (l_size s =? 1) && negb small then modify rhs (with_size (l_size d)) else ret tt) ;;;
                  let inst := if size =? 1 then 0x80 else if small then 0x83 else 0x81 in
                  emit_reg_extended_op p (one_byte_opcode inst) ext dest ;;;
                  s <- get rhs ;;
                  out (if l_size s =? 1 then emit v
                       else if size =? 1 then emit v
                       else if size =? 2 then emit_bytes 2 v else emit_u32 v) ;;;
                  ret rhs
            | Loaded _ => with_loaded rhs
            | RegRel _ _ _ _ =>
                assertion (l_size d =? l_size s) ;;;
                r <- loaded_register dest ;;
                emit_register_relative_register p (one_byte_opcode (if l_size s =? 1 then code8 else opcode)) r rhs ;;;
                ret rhs
            | _ => crash
            end ;;
  allow_spilling dest ;;;
  free_emit_location source ;;;
  ret dest.

(** emit_x64.c 1683 [emit_divide_or_mod_or_multiply__internal], without assignment and
    for 4 and 8 byte operands. *)
Definition emit_dmm (lhs rhs : nat) (size ext_signed ext_unsigned : Z) (is_signed is_mod : bool) : M nat :=
  assertion ((size =? 4) || (size =? 8)) ;;;
  rdx <- allocate_specific_register REGISTER_D ;;
  upper <- emit_location_loaded rdx size ;;
  prevent_spilling upper ;;;
  rax <- allocate_specific_register REGISTER_A ;;
  lower <- emit_location_loaded rax size ;;
  prevent_spilling lower ;;;
  allow_spilling lower ;;;
  lower <- emit_load_into_specific_gpr lhs rax ;;
  prevent_spilling lower ;;;
  (if is_signed then out ((if size =? 8 then [0x48] else []) ++ [0x99])
   else emit_register_register no_prefix (one_byte_opcode 0x33) upper upper) ;;;
  let ext := if is_signed then ext_signed else ext_unsigned in
  r <- get rhs ;;
  match l_state r with
  | RegRel _ _ _ _ =>
      if 4 <=? l_size r then
        register_relative_with emit_load_gpr no_prefix (one_byte_opcode 0xF7) ext rhs None ;;;
        free_emit_location rhs
      else
        loaded <- emit_load_gpr rhs ;;
        emit_reg_extended_op no_prefix (one_byte_opcode 0xF7) ext loaded ;;;
        free_emit_location loaded
  | _ =>
      loaded <- emit_load_gpr rhs ;;
      emit_reg_extended_op no_prefix (one_byte_opcode 0xF7) ext loaded ;;;
      free_emit_location loaded
  end ;;;
  allow_spilling lower ;;;
  allow_spilling upper ;;;
  modify upper (with_size size) ;;;
  modify lower (with_size size) ;;;
  if is_mod then free_emit_location lower ;;; ret upper
  else free_emit_location upper ;;; ret lower.

(** emit_x64.c 2122 [emit_shift_or_rotate__internal], not compound. *)
Definition emit_shift (lhs rhs : nat) (ext : Z) : M nat :=
  l <- get lhs ;; r <- get rhs ;;
  match l_state r with
  | Immediate v =>
      assertion (l_size r =? 1) ;;;
      loaded <- emit_load_gpr lhs ;;
      emit_reg_extended_op no_prefix (one_byte_opcode (if l_size l =? 1 then 0xC0 else 0xC1)) ext loaded ;;;
      out (emit v) ;;;
      ret loaded
  | _ =>
      count <- match l_state r with
               | Loaded 1 => ret rhs
               | _ => cl <- allocate_specific_register REGISTER_C ;; emit_load_into_specific_gpr rhs cl
               end ;;
      prevent_spilling count ;;;
      loaded <- emit_load_gpr lhs ;;
      emit_reg_extended_op no_prefix (one_byte_opcode 0xD3) ext loaded ;;;
      modify loaded (with_size (l_size l)) ;;;
      allow_spilling count ;;;
      free_emit_location count ;;;
      ret loaded
  end.

(** emit_x64.c 2099 [emit_compare_to_zero] *)
Definition emit_compare_to_zero (id : nat) : M nat :=
  l <- get id ;;
  emit_register_register no_prefix (one_byte_opcode (if l_size l =? 1 then 0x84 else 0x85)) id id ;;;
  free_emit_location id ;;;
  emit_location_conditional COMP_unequals.

(** emit_x64.c 2524 [emit_integer_cast]; the opcode is that of the extension. *)
Definition emit_integer_cast (id : nat) (size : Z) (op : list Z) : M nat :=
  modify id (with_size size) ;;;
  l <- get id ;;
  match l_state l with
  | RegRel _ _ _ _ =>
      r <- allocate_register ;;
      emit_register_relative_register no_prefix op r id ;;;
      free_emit_location id ;;;
      emit_location_loaded r size
  | Immediate _ => emit_load_gpr id
  | _ => emit_register_register no_prefix op id id ;;; ret id
  end.

(** emit_x64.c 4180-4192: the condition of a logical not. *)
Definition negate_condition (c : comp) : outcome comp :=
  match c with
  | COMP_equals => Done COMP_unequals | COMP_unequals => Done COMP_equals
  | COMP_smaller => Done COMP_bigger_equals | COMP_bigger => Done COMP_smaller_equals
  | COMP_smaller_equals => Done COMP_bigger | COMP_bigger_equals => Done COMP_smaller
  | COMP_bigger_equals_signed => Done COMP_smaller_signed
  | COMP_smaller_equals_signed => Done COMP_bigger_signed
  | COMP_bigger_signed => Done COMP_smaller_equals_signed
  | COMP_smaller_signed => Done COMP_bigger_equals_signed
  | _ => Crash
  end.

(** emit_x64.c 2000 [emit_load_bitfield] *)
Definition emit_load_bitfield (id : nat) (bit_index width : Z) (is_signed : bool) : M nat :=
  id <- emit_load_gpr id ;;
  prevent_spilling id ;;;
  modify id (fun l => with_size (if l_size l <=? 4 then 4 else 8) l) ;;;
  l <- get id ;;
  let bit_size := if l_size l <=? 4 then 32 else 64 in
  (if bit_index + width <? bit_size then
     emit_reg_extended_op no_prefix (one_byte_opcode 0xC1) 4 id ;;;
     out (emit (bit_size - (bit_index + width)))
   else ret tt) ;;;
  (if negb (width =? bit_size) then
     emit_reg_extended_op no_prefix (one_byte_opcode 0xC1) (if is_signed then 7 else 5) id ;;;
     out (emit (bit_size - width))
   else ret tt) ;;;
  allow_spilling id ;;;
  modify id (with_size (if width <=? 32 then 4 else 8)) ;;;
  ret id.

(** [1ull << width]: for a width of 64 the C shift is undefined; the machine instruction
    gives 1, so the mask is 0. *)
Definition one_shifted (width : Z) : Z := 2 ^ (width mod 64).
Definition u64_not (x : Z) : Z := 2 ^ 64 - 1 - wrapu 64 x.

(** emit_x64.c 2035 [emit_store_bitfield] *)
Definition emit_store_bitfield (bit_index width : Z) (lhs rhs : nat) : M nat :=
  prevent_spilling lhs ;;;
  rhs_loaded <- emit_load_gpr rhs ;;
  prevent_spilling rhs_loaded ;;;
  l <- get lhs ;;
  let field_mask := one_shifted width - 1 in
  mask <- emit_location_immediate (wrapu 64 field_mask) (l_size l) ;;
  mask_loaded <- emit_load_gpr mask ;;
  emit_register_register no_prefix (one_byte_opcode 0x23) rhs_loaded mask_loaded ;;;
  free_emit_location mask_loaded ;;;
  (if bit_index =? 0 then ret tt
   else emit_reg_extended_op no_prefix (one_byte_opcode 0xC1) 4 rhs_loaded ;;; out (emit bit_index)) ;;;
  lhs_loaded <- emit_load_gpr lhs ;;
  prevent_spilling lhs_loaded ;;;
  mask <- emit_location_immediate (u64_not (wrapu 64 field_mask * 2 ^ bit_index)) (l_size l) ;;
  mask_loaded <- emit_load_gpr mask ;;
  emit_register_register no_prefix (one_byte_opcode 0x23) lhs_loaded mask_loaded ;;;
  free_emit_location mask_loaded ;;;
  emit_register_register no_prefix (one_byte_opcode 0x0B) lhs_loaded rhs_loaded ;;;
  allow_spilling rhs_loaded ;;;
  allow_spilling lhs_loaded ;;;
  free_emit_location rhs_loaded ;;;
  emit_store lhs lhs_loaded ;;;
  allow_spilling lhs ;;;
  ret lhs.

(** emit_x64.c 1911 [instruction_from_comp_condition]: [true] is
    [JUMP_CONTEXT_jump_on_true]; [COMP_none] is an unconditional jump. *)
Definition jump_opcode (c : comp) (on_true : bool) : Z :=
  match c with
  | COMP_none => 0xE9
  | COMP_unequals => if on_true then 0x85 else 0x84
  | COMP_equals => if on_true then 0x84 else 0x85
  | COMP_smaller => if on_true then 0x82 else 0x83
  | COMP_smaller_equals => if on_true then 0x86 else 0x87
  | COMP_bigger => if on_true then 0x87 else 0x86
  | COMP_bigger_equals => if on_true then 0x83 else 0x82
  | COMP_smaller_signed => if on_true then 0x8C else 0x8D
  | COMP_smaller_equals_signed => if on_true then 0x8E else 0x8F
  | COMP_bigger_signed => if on_true then 0x8F else 0x8E
  | COMP_bigger_equals_signed => if on_true then 0x8D else 0x8C
  | COMP_positive => if on_true then 0x89 else 0x88
  | COMP_negative => if on_true then 0x88 else 0x89
  end.
Definition jump_bytes (c : comp) (on_true : bool) : list Z :=
  match c with COMP_none => [0xE9] | _ => [0x0F; jump_opcode c on_true] end.

(** emit_x64.c 1961 [jump_context_emit]: emit the jump with an empty displacement and
    remember where the displacement is. *)
Definition jump_context_emit (label : nat) (on_true : bool) (c : comp) : M unit :=
  out (jump_bytes c on_true) ;;;
  fun s =>
    let at_ := Z.of_nat (length (code s)) in
    (out (emit_u32 0)) (in_jumps (jumps s ++ [(label, at_)]) (labels s) s).

(** emit_x64.c 3731 [IR_jump_label] *)
Definition set_label (label : nat) : M unit := fun s =>
  Done (tt, in_jumps (jumps s) ((label, Z.of_nat (length (code s))) :: labels s) s).

(** emit_x64.c 1974 [jump_node_end_jump]: [to_s32] asserts that the distance fits. *)
Definition patch (code : list Z) (at_ target : Z) : outcome (list Z) :=
  let distance := target - (at_ + 4) in
  if (- 2 ^ 31 <=? distance) && (distance <? 2 ^ 31)
  then Done (firstn (Z.to_nat at_) code ++ emit_u32 distance ++ skipn (Z.to_nat at_ + 4) code)
  else Crash.

Fixpoint find_label (n : nat) (l : list (nat * Z)) : option Z :=
  match l with
  | [] => None
  | (k, p) :: rest => if Nat.eqb k n then Some p else find_label n rest
  end.

(** emit_x64.c 4687-4690, 1979 [emit_end_jumps_location]: patch every jump.  A jump to a
    label that was never placed goes to its zero-initialized position 0. *)
Fixpoint patch_all (code : list Z) (js : list (nat * Z)) (ls : list (nat * Z)) : outcome (list Z) :=
  match js with
  | [] => Done code
  | (label, at_) :: rest =>
      obind (patch code at_ (match find_label label ls with Some p => p | None => 0 end))
            (fun code => patch_all code rest ls)
  end.

(** The IR instructions of integer expressions (ir.h), with the type-indexed families
    folded into parameters.  [lhs] marks the [_lhs] variants, which work on the operand
    below the top of the stack. *)
Inductive ir : Set :=
| IR_local (offset size : Z)                (* IR_identifier of a declaration on the stack *)
| IR_integer_literal (value size : Z)       (* value: integer_literal_to_bytes *)
| IR_cast_to_bool (lhs : bool)
| IR_sign_extend (from to : Z) (lhs : bool)
| IR_zero_extend (from to : Z) (lhs : bool)
| IR_truncate (to : Z) (lhs : bool)
| IR_member (offset size : Z)
| IR_member_deref (offset size : Z)
| IR_deref (size : Z)
| IR_pointer_subscript (size : Z)
| IR_load_address (lhs : bool)
| IR_pop_expression
| IR_swap_lhs_rhs
| IR_compare (c : comp) (size : Z)
| IR_bitwise_not | IR_logical_not | IR_negate
| IR_multiply (is_signed : bool)
| IR_divide (is_signed : bool)
| IR_mod (is_signed : bool)
| IR_add | IR_subtract | IR_or | IR_xor | IR_and
| IR_left_shift (is_signed : bool)
| IR_right_shift (is_signed : bool)
| IR_store
| IR_store_bitfield (bit_index width : Z)
| IR_load_bitfield (bit_index width : Z) (is_signed : bool) (lhs : bool)
| IR_jump_label (label : nat)
| IR_jump (label : nat)
| IR_jump_if (on_true : bool) (label : nat)
| IR_nop
| IR_return.                                (* of an integer, at the end of the function *)

(** emit_x64.c 3898-3904, 4196-4202: a condition is loaded unless a conditional jump or a
    logical not follows.  (At the very end of the function it is not loaded.) *)
Definition keeps_condition (next : option ir) : bool :=
  match next with
  | None => true
  | Some (IR_jump_if _ _) | Some IR_logical_not => true
  | _ => false
  end.

(** emit_x64.c 2487 [emit_code_for_pointer_subscript] *)
Definition emit_pointer_subscript (size : Z) (pointer index : nat) : M nat :=
  index <- emit_load_gpr index ;;
  emit_register_register no_prefix (one_byte_opcode 0x69) index index ;;;
  out (emit_u32 size) ;;;
  emit_location_register_relative pointer (Some index) 0 size.

(** The operand an instruction works on: the top of the stack, or the one below. *)
Definition on_operand (lhs : bool) (f : nat -> M nat) (stack : list nat) : M (list nat) :=
  match lhs, stack with
  | false, x :: rest => y <- f x ;; ret (y :: rest)
  | true, z :: x :: rest => y <- f x ;; ret (z :: y :: rest)
  | _, _ => crash
  end.
Definition binary (f : nat -> nat -> M nat) (stack : list nat) : M (list nat) :=
  match stack with
  | rhs :: lhs :: rest => y <- f lhs rhs ;; ret (y :: rest)
  | _ => crash
  end.

(** emit_x64.c 2640-2905: the opcodes of the extensions. *)
Definition sign_extend_opcode (from : Z) : list Z :=
  if from =? 1 then two_byte_opcode 0xBE else if from =? 2 then two_byte_opcode 0xBF else one_byte_opcode 0x63.
Definition zero_extend_opcode (from : Z) : list Z :=
  if from =? 1 then two_byte_opcode 0xB6 else two_byte_opcode 0xB7.

Definition is_loaded (id : nat) : M bool :=
  l <- get id ;; ret (match l_state l with Loaded _ => true | _ => false end).

(** One iteration of the loop of [emit_code_for_function__internal] (emit_x64.c
    2602-4670).  The head of [stack] is the top of [emit_location_stack]. *)
Definition emit_ir (i : ir) (next : option ir) (stack : list nat) : M (list nat) :=
  match i with
  | IR_local offset size =>                                            (* 2626 *)
      id <- emit_location_stack_relative offset size ;; ret (id :: stack)
  | IR_integer_literal value size =>                                   (* 2640 *)
      id <- emit_location_immediate value size ;; ret (id :: stack)
  | IR_cast_to_bool lhs =>                                             (* 2781 *)
      on_operand lhs (fun id =>
        id <- emit_load_gpr id ;;
        c <- emit_compare_to_zero id ;;
        modify c (with_size 1) ;;;
        emit_load_gpr c) stack
  | IR_sign_extend from to lhs =>                                      (* 2835-2868 *)
      on_operand lhs (fun id => emit_integer_cast id to (sign_extend_opcode from)) stack
  | IR_zero_extend from to lhs =>                                      (* 2871-2904 *)
      on_operand lhs (fun id =>
        if from =? 4 then
          id <- emit_integer_cast id 4 (one_byte_opcode 0x8B) ;;
          modify id (with_size 8) ;;; ret id
        else emit_integer_cast id to (zero_extend_opcode from)) stack
  | IR_truncate to lhs =>                                              (* 3230-3244 *)
      on_operand lhs (fun id => modify id (with_size to) ;;; ret id) stack
  | IR_member offset size =>                                           (* 3250 *)
      on_operand false (fun id =>
        l <- get id ;;
        match l_state l with
        | RegRel b i sc off =>
            set id (mkloc (RegRel b i sc (off + offset)) size (l_prevent_spilling l) (l_prevent_freeing l)) ;;;
            ret id
        | _ => crash
        end) stack
  | IR_member_deref offset size =>                                     (* 3261 *)
      on_operand false (fun id => emit_location_register_relative id None offset size) stack
  | IR_deref size =>                                                   (* 4154 *)
      on_operand false (fun id => emit_location_register_relative id None 0 size) stack
  | IR_pointer_subscript size =>                                       (* 3274 *)
      binary (emit_pointer_subscript size) stack
  | IR_load_address lhs =>                                             (* 4140 *)
      on_operand lhs (fun id =>
        r <- allocate_register ;;
        loaded <- emit_load_address id r ;;
        free_emit_location id ;;; ret loaded) stack
  | IR_pop_expression =>                                               (* 3704 *)
      match stack with
      | id :: rest => free_emit_location id ;;; ret rest
      | _ => crash
      end
  | IR_swap_lhs_rhs =>                                                 (* 3711 *)
      match stack with a :: b :: rest => ret (b :: a :: rest) | _ => crash end
  | IR_compare c size =>                                               (* 3841-3907 *)
      binary (fun lhs rhs =>
        result <- emit_binary_op no_prefix lhs rhs size false 7 0x3A 0x3B ;;
        free_emit_location result ;;;
        conditional <- emit_location_conditional c ;;
        if keeps_condition next then ret conditional else emit_load_gpr conditional) stack
  | IR_bitwise_not =>                                                  (* 4162 *)
      on_operand false (fun id =>
        id <- emit_load_gpr id ;;
        emit_reg_extended_op no_prefix (one_byte_opcode 0xF7) 2 id ;;; ret id) stack
  | IR_negate =>                                                       (* 4209 *)
      on_operand false (fun id =>
        id <- emit_load_gpr id ;;
        emit_reg_extended_op no_prefix (one_byte_opcode 0xF7) 3 id ;;; ret id) stack
  | IR_logical_not =>                                                  (* 4170 *)
      on_operand false (fun id =>
        l <- get id ;;
        id <- match l_state l with
              | Conditional _ => ret id
              | _ => id <- emit_load_gpr id ;; emit_compare_to_zero id
              end ;;
        l <- get id ;;
        match l_state l with
        | Conditional c =>
            c <- lift (negate_condition c) ;;
            set id (with_state (Conditional c) l) ;;;
            if keeps_condition next then ret id else emit_load_gpr id
        | _ => crash
        end) stack
  | IR_multiply is_signed =>                                           (* 4258 *)
      binary (fun lhs rhs => l <- get lhs ;; emit_dmm lhs rhs (l_size l) 5 4 is_signed false) stack
  | IR_divide is_signed =>                                             (* 4277 *)
      binary (fun lhs rhs => l <- get lhs ;; emit_dmm lhs rhs (l_size l) 7 6 is_signed false) stack
  | IR_mod is_signed =>                                                (* 4295 *)
      binary (fun lhs rhs => l <- get lhs ;; emit_dmm lhs rhs (l_size l) 7 6 is_signed true) stack
  | IR_add =>                                                          (* 4306 *)
      binary (fun lhs rhs => l <- get lhs ;; emit_binary_op no_prefix lhs rhs (l_size l) false 0 0x02 0x03) stack
  | IR_subtract =>                                                     (* 4324 *)
      binary (fun lhs rhs => l <- get lhs ;; emit_binary_op no_prefix lhs rhs (l_size l) false 5 0x2A 0x2B) stack
  | IR_or =>                                                           (* 4367 *)
      binary (fun lhs rhs => l <- get lhs ;; emit_binary_op no_prefix lhs rhs (l_size l) false 1 0x0A 0x0B) stack
  | IR_xor =>                                                          (* 4375 *)
      binary (fun lhs rhs => l <- get lhs ;; emit_binary_op no_prefix lhs rhs (l_size l) false 6 0x32 0x33) stack
  | IR_and =>                                                          (* 4383 *)
      binary (fun lhs rhs => l <- get lhs ;; emit_binary_op no_prefix lhs rhs (l_size l) false 4 0x22 0x23) stack
  | IR_left_shift is_signed =>                                         (* 4342 *)
      binary (fun lhs rhs => emit_shift lhs rhs (if is_signed then 6 else 4)) stack
  | IR_right_shift is_signed =>                                        (* 4354 *)
      binary (fun lhs rhs => emit_shift lhs rhs (if is_signed then 7 else 5)) stack
  | IR_store =>                                                        (* 4392 *)
      binary (fun lhs rhs =>
        r <- get rhs ;;
        rhs <- match l_state r with Immediate _ => ret rhs | _ => emit_load_gpr rhs end ;;
        prevent_freeing rhs ;;;
        emit_store lhs rhs ;;;
        allow_freeing rhs ;;;
        free_emit_location lhs ;;;
        ret rhs) stack
  | IR_store_bitfield bit_index width =>                               (* 4425 *)
      binary (emit_store_bitfield bit_index width) stack
  | IR_load_bitfield bit_index width is_signed lhs =>                  (* 4436 *)
      on_operand lhs (fun id => emit_load_bitfield id bit_index width is_signed) stack
  | IR_jump_label label => set_label label ;;; ret stack               (* 3731 *)
  | IR_jump label => jump_context_emit label true COMP_none ;;; ret stack  (* 3738 *)
  | IR_jump_if on_true label =>                                        (* 3745 *)
      match stack with
      | id :: rest =>
          l <- get id ;;
          id <- match l_state l with
                | Conditional _ => ret id
                | _ => id <- emit_load_gpr id ;; emit_compare_to_zero id
                end ;;
          spill_all volatile ;;;
          l <- get id ;;
          match l_state l with
          | Conditional c =>
              jump_context_emit label on_true c ;;;
              free_emit_location id ;;;
              ret rest
          | _ => crash
          end
      | _ => crash
      end
  | IR_nop => ret stack                                                (* 4646 *)
  | IR_return =>                                                       (* 3656; elsewhere it jumps to the epilog: not modelled *)
      match stack, next with
      | id :: rest, None =>
          loaded <- emit_load_into_specific_gpr id REGISTER_A ;;
          free_emit_location loaded ;;; ret rest
      | _, _ => crash
      end
  end.

(** The loop; [after] is what follows this part of the function's IR. *)
Fixpoint emit_irs (is : list ir) (after : option ir) (stack : list nat) : M (list nat) :=
  match is with
  | [] => ret stack
  | i :: rest =>
      stack <- emit_ir i (match rest with n :: _ => Some n | [] => after end) stack ;;
      emit_irs rest after stack
  end.

(** emit_x64.c 4697-4725: the state at the start of a function: only [register_bp] exists
    and no register is taken. *)
Definition initial : emitter :=
  mkemitter [mkloc (Loaded REGISTER_BP) 8 0 0] (fun _ => None) 1 0 [] [] [].

(** The body of a function: its code with the jumps patched.  The final asserts: no
    register is allocated and the stack is empty. *)
Definition emit_function (is : list ir) : outcome (list Z * Z) :=
  obind (emit_irs is None [] initial) (fun '(stack, s) =>
  match stack, forallb (fun r => match rmap s r with None => true | Some _ => false end) volatile with
  | [], true => obind (patch_all (code s) (jumps s) (labels s)) (fun c => Done (c, tsa s))
  | _, _ => Crash
  end).

End Function.
