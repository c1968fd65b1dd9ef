(** What a client of the register allocator may rely on. *)
From Verif Require Import Base EncModel EmitModel X64Machine AllocModel.

(** The values a list of requests makes, in order: size and value. *)
Definition made (q : request) : list (Z * Z) :=
  match q with
  | Make n v | Make_in _ n v | Constant n v => [(n, v)]
  | _ => []
  end.
Definition values (qs : list request) : list (Z * Z) := flat_map made qs.

(** Requests name volatile general purpose registers and sizes of 1, 2, 4 or 8 bytes. *)
Definition sensible (q : request) : Prop :=
  let size n := n = 1 \/ n = 2 \/ n = 4 \/ n = 8 in
  let register r := In r [0; 1; 2; 8; 9; 10; 11] in
  match q with
  | Make n _ | Constant n _ => size n
  | Make_in r n _ => register r /\ size n
  | Load_into _ r => register r
  | _ => True
  end.

(** Where value [x] is: a register, a stack slot of [size] bytes at [rbp + offset], or a
    constant known to the compiler. *)
Inductive place : Set :=
| In_register (r size : Z)
| In_slot (offset size : Z)
| Known (size value : Z).
Definition place_of (c : client) (x : nat) : option place :=
  match nth_error (snd c) x with
  | Some (Some id) =>
      match nth_error (heap (fst c)) id with
      | Some l =>
          match l_state l with
          | Loaded r => Some (In_register r (l_size l))
          | Immediate v => Some (Known (l_size l) v)
          | RegRel 0%nat None 0 offset => Some (In_slot offset (l_size l))
          | _ => None
          end
      | None => None
      end
  | _ => None
  end.

Definition contents (m : machine) (p : place) : Z :=
  match p with
  | In_register r n => regs m r mod 2 ^ (8 * n)
  | In_slot off n => load (Z.to_nat n) (mem m) (regs m 5 + off)
  | Known n v => v mod 2 ^ (8 * n)
  end.
Definition place_size (p : place) : Z :=
  match p with In_register _ n | In_slot _ n | Known n _ => n end.

(** Two places do not share a register nor a byte of memory. *)
Definition apart (p q : place) : Prop :=
  match p, q with
  | In_register r _, In_register r' _ => r <> r'
  | In_slot o n, In_slot o' n' => o + n <= o' \/ o' + n' <= o
  | _, _ => True
  end.
