(** Histories of arena operations and the blocks their caller owns. *)
From Verif Require Import Base UtilSpec ArenaModel.

(** A block: address, size, requested alignment. *)
Record block : Set := mkblock { address : Z; size : Z; alignment : Z }.

Definition disjoint (b c : block) : Prop := address b + size b <= address c \/ address c + size c <= address b.

(** An arena, the open temporary memories (innermost first) with the blocks owned when
    each was begun, and the blocks owned now. *)
Record slot : Set := mkslot { arena_of : arena; temps : list ((Z * Z) * list block); owned : list block }.

Record world : Set := mkworld { global_reserved : Z; slots : list slot }.

Inductive op : Set :=
| Create (size constant_grow : Z)        (* create_memory_arena into a new variable *)
| Declare_zero                           (* a zero-initialised arena variable *)
| Push (i : nat) (size alignment : Z)    (* any push macro *)
| Align (i : nat) (alignment : Z)
| Zero_align (i : nat) (alignment : Z)
| Begin (i : nat)
| End (i : nat)
| Solidify (i : nat)
| Reset (i : nat).

Fixpoint update {A} (i : nat) (x : A) (l : list A) : list A :=
  match i, l with O, _ :: r => x :: r | S i, y :: r => y :: update i x r | _, [] => [] end.

Section run.
  Variable global_base : Z.
  Variable growth : Z -> Z.

  Definition on_slot (w : world) (i : nat) (f : Z -> slot -> outcome (Z * slot)) : outcome world :=
    match nth_error (slots w) i with
    | None => Crash
    | Some s => obind (f (global_reserved w) s) (fun '(g, s) => Done (mkworld g (update i s (slots w))))
    end.

  Definition step (w : world) (o : op) : outcome world :=
    match o with
    | Create size constant_grow =>
        obind (create_memory_arena global_base (global_reserved w) size constant_grow) (fun '(g, a) =>
        Done (mkworld g (slots w ++ [mkslot a [] []])))
    | Declare_zero => Done (mkworld (global_reserved w) (slots w ++ [mkslot zero_arena [] []]))
    | Push i size alignment => on_slot w i (fun g s =>
        obind (push_struct_ global_base growth g (arena_of s) size alignment) (fun '(g, a, address) =>
        Done (g, mkslot a (temps s) (mkblock address size alignment :: owned s))))
    | Align i alignment => on_slot w i (fun g s =>
        obind (push_align global_base g (arena_of s) alignment) (fun '(g, a) => Done (g, mkslot a (temps s) (owned s))))
    | Zero_align i alignment => on_slot w i (fun g s =>
        obind (push_zero_align global_base g (arena_of s) alignment) (fun '(g, a) => Done (g, mkslot a (temps s) (owned s))))
    | Begin i => on_slot w i (fun g s =>
        obind (begin_temporary_memory global_base g (arena_of s)) (fun '(g, a, t) =>
        Done (g, mkslot a ((t, owned s) :: temps s) (owned s))))
    | End i => on_slot w i (fun g s =>
        match temps s with
        | [] => Crash
        | (t, blocks) :: rest => obind (end_temporary_memory (arena_of s) t) (fun a => Done (g, mkslot a rest blocks))
        end)
    | Solidify i => on_slot w i (fun g s =>
        match temps s with
        | [] => Crash
        | (t, _) :: rest => obind (solidify_temporary_memory (arena_of s) t) (fun a => Done (g, mkslot a rest (owned s)))
        end)
    | Reset i => on_slot w i (fun g s =>
        (* callers do not reset an arena inside of a temporary memory *)
        match temps s with
        | [] => Done (g, mkslot (arena_reset (arena_of s)) [] [])
        | _ => Crash
        end)
    end.

  Fixpoint run (ops : list op) (w : world) : outcome world :=
    match ops with [] => Done w | o :: ops => obind (step w o) (run ops) end.
End run.

(** std.c 725: the first page of the reservation is skipped. *)
Definition start : world := mkworld 4096 [].

(** What callers pass: sizes that are not negative and below 2^40, arenas of whole pages. *)
Definition sane (o : op) : Prop :=
  match o with
  | Create size constant_grow => 0 < size < 2 ^ 40 /\ (4096 | size) /\ 0 <= constant_grow < 2 ^ 32
  | Push _ size alignment => 0 <= size < 2 ^ 40 /\ 0 <= alignment
  | Align _ alignment | Zero_align _ alignment => 0 <= alignment
  | _ => True
  end.

(** Operations which open and close temporary memory of slot [i] in a nested way. *)
Definition touches (i : nat) (o : op) : bool :=
  match o with Begin j | End j | Solidify j | Reset j => Nat.eqb i j | _ => false end.
Inductive nested (i : nat) : list op -> Prop :=
| nested_nil : nested i []
| nested_other : forall o l, touches i o = false -> nested i l -> nested i (o :: l)
| nested_end : forall l m, nested i l -> nested i m -> nested i (Begin i :: l ++ End i :: m)
| nested_solidify : forall l m, nested i l -> nested i m -> nested i (Begin i :: l ++ Solidify i :: m).

Definition all_blocks (w : world) : list block := flat_map owned (slots w).

(** A block of size 0 needs no memory; it may even come from an arena that has none yet. *)
Definition within_committed (s : slot) (b : block) : Prop :=
  0 < size b -> base (arena_of s) <= address b /\ address b + size b <= end_of_committed_memory (arena_of s).
