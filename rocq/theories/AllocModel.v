(** A driver for the register allocator of emit_x64.c (EmitModel.v): a client that makes
    any sequence of requests.  Its values are numbered in the order in which they are made. *)
From Verif Require Import Base EncModel EmitModel.

Inductive request : Set :=
| Make (size value : Z)              (* a register, and an instruction that computes [value] into it *)
| Make_in (r size value : Z)         (* the same for a particular register *)
| Constant (size value : Z)          (* an immediate *)
| Scratch (value : Z)                (* a register that is overwritten and not kept *)
| Load (x : nat)                     (* value [x] must be in some register *)
| Load_into (x : nat) (r : Z)        (* value [x] must be in register [r] *)
| Lock (x : nat) | Unlock (x : nat)
| Free (x : nat)
| Spill_all.

(** The emitter and the location of every value made; [None]: freed. *)
Definition client : Type := emitter * list (option nat).

(** emit_x64.c 2140-2160: a value that is not yet there is loaded into the register, after
    the register was allocated. *)
Definition load_into (stack_space : Z) (id : nat) (r : Z) : M nat :=
  l <- get id ;;
  match l_state l with
  | Loaded r0 =>
      if r0 =? r then ret id
      else allocate_specific_register stack_space r ;;; emit_load_into_specific_gpr stack_space id r
  | _ => allocate_specific_register stack_space r ;;; emit_load_into_specific_gpr stack_space id r
  end.

Definition named (c : client) (x : nat) (f : nat -> M (option nat)) : outcome client :=
  match nth_error (snd c) x with
  | Some (Some id) =>
      obind (f id (fst c)) (fun '(id', s) => Done (s, replace_nth x id' (snd c)))
  | _ => Crash                       (* no such value: an error of the client *)
  end.
Definition make (c : client) (e : M nat) : outcome client :=
  obind (e (fst c)) (fun '(id, s) => Done (s, snd c ++ [Some id])).

Definition serve (stack_space : Z) (q : request) (c : client) : outcome client :=
  match q with
  | Make size value =>
      make c (r <- allocate_register stack_space ;;
              id <- emit_location_loaded r size ;;
              out (emit_mov_immediate r size value) ;;;
              ret id)
  | Make_in r size value =>
      make c (allocate_specific_register stack_space r ;;;
              id <- emit_location_loaded r size ;;
              out (emit_mov_immediate r size value) ;;;
              ret id)
  | Constant size value => make c (emit_location_immediate value size)
  | Scratch value =>
      obind ((r <- allocate_register stack_space ;; out (emit_mov_immediate r 8 value)) (fst c))
            (fun '(_, s) => Done (s, snd c))
  | Load x => named c x (fun id => id' <- emit_load_gpr stack_space id ;; ret (Some id'))
  | Load_into x r => named c x (fun id => id' <- load_into stack_space id r ;; ret (Some id'))
  | Lock x => named c x (fun id => prevent_spilling stack_space id ;;; ret (Some id))
  | Unlock x => named c x (fun id => allow_spilling id ;;; ret (Some id))
  | Free x => named c x (fun id => free_emit_location id ;;; ret None)
  | Spill_all =>
      obind (spill_all stack_space volatile (fst c)) (fun '(_, s) => Done (s, snd c))
  end.

Fixpoint serve_all (stack_space : Z) (qs : list request) (c : client) : outcome client :=
  match qs with
  | [] => Done c
  | q :: rest => obind (serve stack_space q c) (serve_all stack_space rest)
  end.

(** emit_x64.c 4700-4724: the state in which the code of a function starts; the only
    location is [register_bp]. *)
Definition start (n : nat) : client :=
  (mkemitter [mkloc (Loaded 5) 8 0 0] (fun _ => None) n 0 [] [] [], []).
