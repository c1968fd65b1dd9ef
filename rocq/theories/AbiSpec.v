(** C47: the x64 calling convention of Windows, as published ("x64 calling convention", "x64 stack usage"). *)
From Coq Require Import List ZArith Bool.
Import ListNotations.
Open Scope Z_scope.

(** Integers, enumerations and pointers; float and double; structs and unions; __m64 (8 bytes), __m128 and larger. *)
Inductive type : Set :=
| Integer (size : Z)
| Float
| Double
| Aggregate (size : Z)
| Vector (size : Z).

(** "Structs or unions of size 8, 16, 32, or 64 bits, and __m64 types, are passed as if they were integers of
    the same size.  Structs or unions of other sizes are passed as a pointer to memory allocated by the caller";
    "__m128 types, arrays, and strings are never passed by immediate value". *)
Definition by_reference (t : type) : bool :=
  match t with
  | Integer _ | Float | Double => false
  | Aggregate n | Vector n => negb (existsb (Z.eqb n) [1; 2; 4; 8])
  end.

(** "Otherwise, the caller must allocate memory for the return value and pass a pointer to it as the first argument.  The
    remaining arguments are then shifted one argument to the right"; vectors are returned in XMM0. *)
Definition hidden_pointer (t : type) : bool := match t with Aggregate n => negb (existsb (Z.eqb n) [1; 2; 4; 8]) | _ => false end.

(** Where an argument is when the call instruction runs: RCX, RDX, R8, R9 (numbered 1, 2, 8, 9), XMM0 to XMM3, or the
    stack, as a distance to RSP.  The first four have 32 bytes of unused home space on the stack. *)
Inductive place : Set :=
| In_register (r : Z)
| In_xmm (r : Z)
| On_stack (offset : Z).

Definition position_place (floating : bool) (position : nat) : place :=
  match position with
  | 0%nat => if floating then In_xmm 0 else In_register 1
  | 1%nat => if floating then In_xmm 1 else In_register 2
  | 2%nat => if floating then In_xmm 2 else In_register 8
  | 3%nat => if floating then In_xmm 3 else In_register 9
  | _ => On_stack (8 * Z.of_nat position)
  end.

Definition is_floating (t : option type) : bool := match t with Some Float | Some Double => true | _ => false end.

(** The place of argument [i] of a function with the given parameters; arguments behind the parameters are those of "...": they are
    read from the integer registers and the stack.  [hidden]: there is a pointer to the return value in front. *)
Definition argument_place (hidden : bool) (parameters : list type) (i : nat) : place :=
  position_place (is_floating (nth_error parameters i)) (if hidden then S i else i).

(** Registers (of 8 bytes; of the XMM registers the low half) and memory, in words of 8 bytes at the given addresses. *)
Record machine : Type := mkmachine { gpr : Z -> Z; xmm : Z -> Z; stack : Z -> Z }.
Definition rsp : Z := 4.
Definition rbp : Z := 5.
Definition rsi : Z := 6.
Definition rdi : Z := 7.

(** What is in a place; [sp] is RSP at the call instruction. *)
Definition contents (m : machine) (sp : Z) (p : place) : Z :=
  match p with
  | In_register r => gpr m r
  | In_xmm r => xmm m r
  | On_stack offset => stack m (sp + offset)
  end.

(** An argument of a type: its value, and the address of a copy of it in memory. *)
Record argument : Set := mkargument { of_type : type; value : Z; copy : Z }.
Definition passed (a : argument) : Z := if by_reference (of_type a) then copy a else value a.

(** The declared parameters have arguments of their types. *)
Definition suits (parameters : list type) (varargs : bool) (args : list argument) : Prop :=
  exists rest, map of_type args = parameters ++ rest /\ (varargs = false -> rest = []).

(** Sizes that types of C have. *)
Definition ordinary (t : type) : Prop :=
  match t with
  | Integer n => In n [1; 2; 4; 8]
  | Float | Double => True
  | Aggregate n => 0 < n
  | Vector n => In n [8; 16; 32; 64]
  end.

(** "The register parameters have home addresses on the stack": an argument's stack slot, whether or not a register carries it. *)
Definition home (sp : Z) (hidden : bool) (i : nat) : Z := sp + 8 * Z.of_nat (if hidden then S i else i).
