(** C47: calls and the entry of functions (emit_x64.c 3352-3652 [IR_function_call], 4712-4962 [emit_code_for_function]).
    Modelled: where each argument is put and found, the frame of a function.  Not modelled here: the moves between
    registers that bring the arguments to their places (C48), the code that copies structs. *)
From Coq Require Import List ZArith Bool.
From Verif Require Import AbiSpec.
Import ListNotations.
Open Scope Z_scope.

Definition type_size (t : type) : Z := match t with Integer n => n | Float => 4 | Double => 8 | Aggregate n => n | Vector n => n end.
Definition is_intrin_type (t : type) : bool := match t with Vector _ => true | _ => false end.

(** parse.c 105 *)
Definition size_is_big_or_oddly_sized (n : Z) : bool := (8 <? n) || (n =? 3) || (n =? 5) || (n =? 6) || (n =? 7).
(** emit_x64.c 2186 *)
Definition type_is_returned_by_address (t : type) : bool := if is_intrin_type t then false else size_is_big_or_oddly_sized (type_size t).

Inductive register_kind : Set := Kgpr | Kxmm.
(** main.c 640 *)
Definition get_register_kind_for_type (t : type) : register_kind :=
  match t with Float | Double | Vector _ => Kxmm | _ => Kgpr end.

(** emit_x64.c 3394-3404, 4739-4750 [argument_registers] *)
Definition argument_register (k : register_kind) (i : nat) : Z :=
  match k with
  | Kgpr => nth i [1; 2; 8; 9] 0
  | Kxmm => nth i [0; 1; 2; 3] 0
  end.

Definition set_gpr (r v : Z) (m : machine) : machine := mkmachine (fun q => if q =? r then v else gpr m q) (xmm m) (stack m).
Definition set_xmm (r v : Z) (m : machine) : machine := mkmachine (gpr m) (fun q => if q =? r then v else xmm m q) (stack m).
Definition store (a v : Z) (m : machine) : machine := mkmachine (gpr m) (xmm m) (fun b => if b =? a then v else stack m b).
Definition load_register (k : register_kind) (r v : Z) (m : machine) : machine := match k with Kgpr => set_gpr r v m | Kxmm => set_xmm r v m end.
Definition register (k : register_kind) (r : Z) (m : machine) : Z := match k with Kgpr => gpr m r | Kxmm => xmm m r end.

(** emit_x64.c 3424-3521, the body of the loop: argument [i]. *)
Definition pass_argument (big_return : bool) (parameters : list type) (i : nat) (a : argument) (m : machine) : machine :=
  let word := if size_is_big_or_oddly_sized (type_size (of_type a)) then copy a else value a in       (* 3427-3447 *)
  let position := (Nat.b2n big_return + i)%nat in
  if (4 <=? position)%nat then store (gpr m rsp + Z.of_nat position * 8) word m                       (* 3476-3490 *)
  else
    let kind :=                                                                                       (* 3496-3506; 3449-3474: floats of "..." are moved to a gpr *)
      match nth_error parameters i with
      | Some Float | Some Double => Kxmm
      | _ => Kgpr
      end in
    load_register kind (argument_register kind position) word m.

(** The loop: the last argument first. *)
Fixpoint pass_arguments (big_return : bool) (parameters : list type) (i : nat) (args : list argument) (m : machine) : machine :=
  match args with
  | [] => m
  | a :: rest => pass_argument big_return parameters i a (pass_arguments big_return parameters (S i) rest m)
  end.

(** emit_x64.c 3423-3571: the arguments, then RCX for the address of the return value. *)
Definition prepare_call (return_type : type) (parameters : list type) (args : list argument) (return_address : Z) (m : machine) : machine :=
  let big_return := type_is_returned_by_address return_type in
  let m := pass_arguments big_return parameters 0 args m in
  if big_return then set_gpr 1 return_address m else m.

Definition push (v : Z) (m : machine) : machine := let sp := gpr m rsp - 8 in set_gpr rsp sp (store sp v m).
Definition pop (r : Z) (m : machine) : machine := let sp := gpr m rsp in set_gpr rsp (sp + 8) (set_gpr r (stack m sp) m).

(** emit_x64.c 4774-4781: registers saved besides RBP; exception filters are not modelled. *)
Definition amount_of_saved_registers : Z := 2.

(** emit_x64.c 4800-4849: [it] is the rest of the parameters, [i] the index, [stack_at] the offset.  Each step saves a register if [i < 4]
    and gives a parameter its place.  [fuel] bounds the steps at index 4 or later without a parameter: there are none. *)
Fixpoint home_arguments (fuel : nat) (varargs big_return : bool) (i : nat) (stack_at : Z) (it : list type) (m : machine) : list Z * machine :=
  match fuel with
  | O => ([], m)
  | S fuel =>
      if negb ((i <? 4)%nat || negb (match it with [] => true | _ => false end)) then ([], m)
      else if negb big_return && (match it with [] => true | _ => false end) && negb varargs then ([], m)
      else
        let m :=
          if (i <? 4)%nat then
            let kind :=
              match it with
              | t :: _ => if big_return then Kgpr else if is_intrin_type t then Kgpr else get_register_kind_for_type t
              | [] => Kgpr
              end in
            store (gpr m rbp - stack_at) (register kind (argument_register kind i) m) m
          else m in
        if big_return then home_arguments fuel varargs false (S i) (stack_at - 8) it m
        else match it with
             | [] => home_arguments fuel varargs false (S i) (stack_at - 8) [] m
             | _ :: it =>
                 let '(offsets, m) := home_arguments fuel varargs false (S i) (stack_at - 8) it m in
                 (stack_at :: offsets, m)
             end
  end.

(** emit_x64.c 4774-4782, 4800-4849: the offsets of the parameters ([offset_on_stack]: the address is RBP minus it) and
    the machine behind the stores. *)
Definition enter_function (return_type : type) (parameters : list type) (varargs : bool) (m : machine) : list Z * machine :=
  let m := push (gpr m rdi) m in
  let m := push (gpr m rsi) m in
  let m := push (gpr m rbp) m in
  let m := set_gpr rbp (gpr m rsp) m in
  home_arguments (length parameters + 5) varargs (type_is_returned_by_address return_type) 0 (- (16 + 8 * amount_of_saved_registers)) parameters m.

(** emit_x64.c 4842-4845 [DECLARATION_FLAGS_is_big_function_argument]: the slot of the parameter holds its address, not its value. *)
Definition is_big_function_argument (t : type) : bool := size_is_big_or_oddly_sized (type_size t).

(** ** The frame *)
Definition align_up (x a : Z) : Z := (x + (a - 1)) / a * a.

(** emit_x64.c 4725, 4874-4900.  [declarations]: [stack_space_needed] after parsing; [temporaries]: the high water mark;
    [arguments]: [max_amount_of_function_call_arguments], which starts at 4. *)
Definition declarations_size (declarations : Z) : Z := align_up declarations 16.
Definition stack_memory_needed (declarations temporaries arguments : Z) : Z :=
  let n := align_up (declarations_size declarations + 32 + temporaries + 8 * arguments) 16 in
  if Z.odd amount_of_saved_registers then n + 8 else n.

(** emit_x64.c 4851-4855: subtract from RSP. *)
Definition make_frame (declarations temporaries arguments : Z) (m : machine) : machine :=
  set_gpr rsp (gpr m rsp - stack_memory_needed declarations temporaries arguments) m.

(** emit_x64.c 850 [emit_allocate_temporary_stack_location]: the new value of the allocator and the distance of the slot from RBP. *)
Definition allocate_temporary (declarations at_ size alignment : Z) : Z * Z :=
  let at_ := align_up at_ alignment + size in (at_, declarations_size declarations + at_).

(** emit_x64.c 4929-4942: the address [ret] continues at, and the machine there. *)
Definition leave_function (m : machine) : Z * machine :=
  let m := set_gpr rsp (gpr m rbp) m in
  let m := pop rbp m in
  let m := pop rsi m in
  let m := pop rdi m in
  (stack m (gpr m rsp), set_gpr rsp (gpr m rsp + 8) m).
