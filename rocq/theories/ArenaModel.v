(** Model of the memory arenas, std.c 685-942.  Addresses and sizes are [Z]; all of them
    stay below 2^63 in the reachable states, so no wrapping is modelled beyond that of
    [align_up] and of the mask in [push_struct_].  Memory contents are not modelled. *)
From Verif Require Import Base UtilModel.

(** std.c 687-704.  [temp_count] and [committed_size] exist in debug builds only. *)
Record arena : Set := mkarena
  { base : Z; current : Z; end_of_committed_memory : Z; reserved : Z;
    constant_grow_amount : Z; temp_count : Z }.

Definition zero_arena : arena := mkarena 0 0 0 0 0 0.

Definition set_current (a : arena) (c : Z) : arena :=
  mkarena (base a) c (end_of_committed_memory a) (reserved a) (constant_grow_amount a) (temp_count a).
Definition set_end (a : arena) (e : Z) : arena :=
  mkarena (base a) (current a) e (reserved a) (constant_grow_amount a) (temp_count a).
Definition set_temp_count (a : arena) (t : Z) : arena :=
  mkarena (base a) (current a) (end_of_committed_memory a) (reserved a) (constant_grow_amount a) t.

(** std.c 711-714 *)
Definition global_dynamic_memory_size : Z := 1024 * 2 ^ 30.
Definition default_arena_size : Z := 8 * 2 ^ 30.
Definition mega_byte : Z := 2 ^ 20.
Definition page : Z := 4096.

Section arenas.
  (** std.c 711: where the operating system put the reservation. *)
  Variable global_dynamic_memory_base : Z.
  (** std.c 840: [(smm)(current_arena_size * max_of(1.0f, exponential_growth_factor))],
      a single-precision product; any function. *)
  Variable exponential_growth : Z -> Z.

  (** std.c 716-745: [global_dynamic_memory_reserved] is the state; the new value and the arena. *)
  Definition create_memory_arena (global_dynamic_memory_reserved size constant_grow : Z) : outcome (Z * arena) :=
    let b := global_dynamic_memory_base + global_dynamic_memory_reserved in
    if b + size >? global_dynamic_memory_base + global_dynamic_memory_size then Crash
    else Done (global_dynamic_memory_reserved + size, mkarena b b b size constant_grow 0).

  (** std.c 778-785, 804-811, 826-832: lazy creation. *)
  Definition ensure (g : Z) (a : arena) : outcome (Z * arena) :=
    if reserved a =? 0 then create_memory_arena g default_arena_size mega_byte else Done (g, a).

  (** std.c 789-799 [push_align_initialized_to_specific_value], 801-817 [push_align]. *)
  Definition push_zero_align (g : Z) (a : arena) (alignment : Z) : outcome (Z * arena) :=
    if negb (alignment <=? page) then Crash else
    if negb (is_power_of_two alignment) then Crash else
    if Z.land (current a) (alignment - 1) =? 0 then Done (g, a)
    else obind (align_up (current a) alignment) (fun aligned =>
         obind (ensure g a) (fun '(g, a) => Done (g, set_current a aligned))).
  Definition push_align (g : Z) (a : arena) (alignment : Z) : outcome (Z * arena) :=
    obind (ensure g a) (fun '(g, a) =>
    if negb (alignment <=? page) then Crash else
    if negb (is_power_of_two alignment) then Crash else
    obind (align_up (current a) alignment) (fun aligned => Done (g, set_current a aligned))).

  (** std.c 823-872.  [os_commit_memory] commits exactly what it is asked for (the asserts 868-869)
      or the compiler stops. *)
  Definition grow_arena (g : Z) (a : arena) (size : Z) : outcome (Z * arena) :=
    obind (ensure g a) (fun '(g, a) =>
    let current_arena_size := end_of_committed_memory a - base a in
    let exponential := exponential_growth current_arena_size in
    let constant := current_arena_size + Z.max (constant_grow_amount a) mega_byte in
    obind (align_up (Z.max exponential constant) page) (fun grow_to =>
    let grow_to := Z.min grow_to (reserved a) in
    obind (align_up size page) (fun aligned_size =>
    let grow_to := Z.max (current_arena_size + aligned_size) grow_to in
    if grow_to >? reserved a then Crash
    else Done (g, set_end a (base a + grow_to))))).

  (** std.c 874-899: the arena and the address. *)
  Definition push_struct_ (g : Z) (a : arena) (size alignment : Z) : outcome (Z * arena * Z) :=
    if negb (is_power_of_two alignment) then Crash else
    if negb (alignment <=? page) then Crash else
    let a := set_current a (align_with_mask (current a) alignment) in
    if negb (current a <=? end_of_committed_memory a) then Crash else
    let rest_size := end_of_committed_memory a - current a in
    obind (if size >? rest_size then grow_arena g a size else Done (g, a)) (fun '(g, a) =>
    let ret := current a in
    Done (g, set_current a (current a + size), ret)).

  (** std.c 904-919 [begin_temporary_memory]: the saved pointer and the index. *)
  Definition begin_temporary_memory (g : Z) (a : arena) : outcome (Z * arena * (Z * Z)) :=
    obind (ensure g a) (fun '(g, a) =>
    let a := set_temp_count a (temp_count a + 1) in
    Done (g, a, (current a, temp_count a))).

  (** std.c 921-938 *)
  Definition end_temporary_memory (a : arena) (temp : Z * Z) : outcome arena :=
    let '(saved_current, temp_index) := temp in
    if negb (temp_count a =? temp_index) then Crash else
    let a := set_temp_count a (temp_count a - 1) in
    let reset_to := if saved_current =? 0 then base a else saved_current in
    if negb (saved_current <=? current a) then Crash
    else Done (set_current a reset_to).

  (** std.c 940-943 *)
  Definition solidify_temporary_memory (a : arena) (temp : Z * Z) : outcome arena :=
    if negb (temp_count a =? snd temp) then Crash
    else Done (set_temp_count a (temp_count a - 1)).

  (** std.c 706-709 *)
  Definition arena_reset (a : arena) : arena := set_current a (base a).
End arenas.
