(** Model of function calls in expressions: the parser's part (src/parse.c 5275-5410) and the code generator's
    (src/emit_x64.c 3353-3650).  Modelled: direct calls of functions with integer parameters and an integer
    result, with at most four arguments (more are [Crash]: the stack arguments are in AbiModel.v).  Not modelled: calls through
    pointers, dllimports, intrinsics, inline assembler, varargs, floating point and structs. *)
From Verif Require Import Base IntTypes EncModel EmitModel.
From Verif Require LowerModel SelectModel.
From Verif Require Import LowerSpec CallSpec.

(** The intermediate code: instructions of LowerModel.v, and IR_function_call with the function, the number of
    arguments and the size of the result.  The IR_identifier of a function called directly (2626) pushes a location of size 0 that
    takes no register and is dropped by the call: it is left out. *)
Inductive citem : Set :=
| CIr (i : LowerModel.ir)
| CCall (f : nat) (count : nat) (size : Z).

Section Lower.
Variable sigs : nat -> signature.
Variable ty : nat -> ity.

(** parse.c 1874 [maybe_insert_implicit_assignment_cast_and_check_that_types_match] for integer types: [push_cast] to
    the type of the parameter ([target]); [None]: no conversion. *)
Definition cast_result (target : option ity) (r : ity) (c : list citem) : list citem * ity :=
  match target with
  | None => (c, r)
  | Some t => (c ++ map CIr (if ity_eqb r t then [] else LowerModel.cast_code false r t), t)
  end.

(** parse.c 5313-5405: the arguments from left to right, each converted to the type of its parameter, then the call.  The wrong number of
    arguments is an error (5349, 5368). *)
Fixpoint lower_call (target : option ity) (e : cexpr) {struct e} : outcome (list citem * ity) :=
  match e with
  | Plain e =>
      obind (LowerModel.lower ty e) (fun q =>
      let q := match target with Some t => LowerModel.cast_expr t q | None => q end in
      Done (map CIr (LowerModel.emit q), LowerModel.resolved_type q))
  | Call f args =>
      obind ((fix arguments (ps : list ity) (args : list cexpr) {struct args} : outcome (list citem) :=
                match ps, args with
                | [], [] => Done []
                | p :: ps, a :: args =>
                    obind (lower_call (Some p) a) (fun c =>
                    obind (arguments ps args) (fun cs => Done (fst c ++ cs)))
                | _, _ => Reported
                end) (parameters (sigs f)) args)
        (fun c => let r := result (sigs f) in
                  Done (cast_result target r (c ++ [CCall f (length args) (bits r / 8)])))
  end.
End Lower.

(** The instructions for the code generator (SelectModel.v). *)
Inductive sitem : Set :=
| SIr (j : ir)
| SCall (f : nat) (count : nat) (size : Z).

Fixpoint select_calls (offset var_bits : nat -> Z) (c : list citem) : option (list sitem) :=
  match c with
  | [] => Some []
  | CIr i :: c => match SelectModel.select offset var_bits i, select_calls offset var_bits c with
                  | Some j, Some js => Some (SIr j :: js) | _, _ => None end
  | CCall f n size :: c => match select_calls offset var_bits c with Some js => Some (SCall f n size :: js) | None => None end
  end.

(** emit_x64.c 3394-3398 [argument_registers]: RCX, RDX, R8, R9 *)
Definition argument_registers : list Z := [1; 2; 8; 9].

Section Emit.
Variable stack_space : Z.

(** emit_x64.c 3500-3520: one argument into its register.  It is locked there. *)
Definition place_argument (r : Z) (id : nat) : M nat :=
  l <- get id ;;
  if match l_state l with Loaded q => q =? r | _ => false end
  then prevent_spilling stack_space id ;;; ret id
  else
    allocate_specific_register stack_space r ;;;
    id' <- emit_load_into_specific_gpr stack_space id r ;;
    prevent_spilling stack_space id' ;;;
    ret id'.

(** emit_x64.c 3424-3521: the loop over the arguments, from the last to the first.  [args]: the last argument first. *)
Fixpoint place_arguments (args : list nat) : M (list nat) :=
  match args with
  | [] => ret []
  | id :: rest =>
      match nth_error argument_registers (length rest) with
      | None => crash
      | Some r =>
          id' <- place_argument r id ;;
          ids <- place_arguments rest ;;
          ret (id' :: ids)
      end
  end.

(** emit_x64.c 3523-3540: spill the volatile registers that do not hold an argument.  [placed]: the
    arguments that belong into the registers [rs]. *)
Fixpoint spill_others (rs : list Z) (placed : list nat) : M unit := fun s =>
  match rs with
  | [] => Done (tt, s)
  | r :: rs =>
      match rmap s r with
      | None => spill_others rs (tl placed) s
      | Some id =>
          if match placed with p :: _ => Nat.eqb id p | [] => false end then spill_others rs (tl placed) s
          else (spill_register stack_space r ;;; spill_others rs (tl placed)) s
      end
  end.

(** emit_x64.c 3592-3601 *)
Fixpoint free_arguments (placed : list nat) : M unit :=
  match placed with
  | [] => ret tt
  | id :: rest => allow_spilling id ;;; free_emit_location id ;;; free_arguments rest
  end.

(** emit_x64.c 3353-3647: the new stack and the position of the displacement of the CALL. *)
Definition emit_call (count : nat) (size : Z) (stack : list nat) : M (list nat * Z) :=
  assertion (count <=? length stack)%nat ;;;
  placed <- place_arguments (firstn count stack) ;;
  spill_others volatile (rev placed) ;;;
  s <- get_state ;;
  out [0xE8; 0; 0; 0; 0] ;;;
  free_arguments (rev placed) ;;;
  id <- emit_location_loaded 0 size ;;
  ret (id :: skipn count stack, Z.of_nat (length (code s)) + 1).

(** What the instruction after a condition is, as far as the code generator looks (4115, 4190): a call, or the function
    identifier before it, is neither a jump nor a logical not. *)
Definition next_ir (is : list sitem) : option ir :=
  match is with
  | [] => None
  | SIr j :: _ => Some j
  | SCall _ _ _ :: _ => Some IR_nop
  end.

Fixpoint emit_calls (is : list sitem) (stack : list nat) (sites : list (nat * Z)) : M (list nat * list (nat * Z)) :=
  match is with
  | [] => ret (stack, sites)
  | SIr j :: rest =>
      stack <- emit_ir stack_space j (next_ir rest) stack ;;
      emit_calls rest stack sites
  | SCall f n size :: rest =>
      r <- emit_call n size stack ;;
      emit_calls rest (fst r) (sites ++ [(f, snd r)])
  end.
End Emit.

(** As SelectModel.v [compile_return], for [return e;] with calls: the machine code between prolog and epilog, the size of the temporaries and
    the call sites.  There are no jumps to patch. *)
Definition compile_calls (sigs : nat -> signature) (stack_space : Z) (offset : nat -> Z) (ty : nat -> ity) (e : cexpr)
    : outcome (list Z * Z * list (nat * Z)) :=
  obind (lower_call sigs ty None e) (fun q =>
  match select_calls offset (fun x => bits (ty x)) (fst q) with
  | None => Crash
  | Some is =>
      obind (emit_calls stack_space (is ++ [SIr IR_return]) [] [] initial) (fun '((stack, sites), s) =>
      match stack, forallb (fun r => match rmap s r with None => true | Some _ => false end) volatile with
      | [], true => Done (code s, tsa s, sites)
      | _, _ => Crash
      end)
  end).
