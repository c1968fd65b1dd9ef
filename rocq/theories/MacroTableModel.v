(** The table of macros: chained hashing with intrusive doubly linked lists. *)
From Verif Require Import Base ScopeModel.

Section Macros.
(** The replacement list, parameters etc. of a macro, and the code's comparison of two of
    them (preprocess.c 4183-4276, modelled elsewhere). *)
Variable def : Type.
Variable same : def -> def -> bool.
Variable string_hash : name -> Z.

(** preprocess.c struct define_node.  [builtin] means [defined_token == &invalid_token]. *)
Record node : Type := mknode { n_name : name; n_def : def; n_builtin : bool; n_next : option nat; n_prev : option nat }.
(** Memory: nodes are never freed, so addresses are numbers below [fresh]. *)
Definition memory := nat -> node.
Definition write (h : memory) (a : nat) (n : node) : memory := fun b => if Nat.eqb b a then n else h b.
Definition set_next (x : option nat) (n : node) := mknode (n_name n) (n_def n) (n_builtin n) x (n_prev n).
Definition set_prev (x : option nat) (n : node) := mknode (n_name n) (n_def n) (n_builtin n) (n_next n) x.
(** [p->next = x] and [p->prev = x]; writing through null crashes. *)
Definition put_next (p : option nat) (x : option nat) (h : memory) : outcome memory :=
  match p with Some a => Done (write h a (set_next x (h a))) | None => Crash end.
Definition put_prev (p : option nat) (x : option nat) (h : memory) : outcome memory :=
  match p with Some a => Done (write h a (set_prev x (h a))) | None => Crash end.

(** preprocess.c 54 struct define_list: first and last. *)
Definition dlist := (option nat * option nat)%type.

(** std.c 475-487 [dll_push_back] *)
Definition dll_push_back (l : dlist) (a : nat) (h : memory) : outcome (dlist * memory) :=
  match fst l with
  | Some _ =>
      obind (put_prev (Some a) (snd l) h) (fun h =>
      obind (put_next (snd l) (Some a) h) (fun h =>
      obind (put_next (Some a) None h) (fun h => Done ((fst l, Some a), h))))
  | None =>
      obind (put_prev (Some a) None h) (fun h =>
      obind (put_next (Some a) None h) (fun h => Done ((Some a, Some a), h)))
  end.

(** std.c 502 [dll_push_front] *)
Definition dll_push_front (l : dlist) (a : nat) (h : memory) : outcome (dlist * memory) :=
  match fst l with
  | Some f =>
      obind (put_next (Some a) (Some f) h) (fun h =>
      obind (put_prev (Some f) (Some a) h) (fun h =>
      obind (put_prev (Some a) None h) (fun h => Done ((Some a, snd l), h))))
  | None =>
      obind (put_next (Some a) None h) (fun h =>
      obind (put_prev (Some a) None h) (fun h => Done ((Some a, Some a), h)))
  end.

(** std.c 504-523 [dll_remove] *)
Definition is_ptr (p : option nat) (a : nat) : bool := match p with Some b => Nat.eqb b a | None => false end.
Definition dll_remove (l : dlist) (a : nat) (h : memory) : outcome (dlist * memory) :=
  if is_ptr (fst l) a then
    match n_next (h a) with
    | Some f => obind (put_prev (Some f) None h) (fun h => Done ((Some f, snd l), h))
    | None => Done ((None, None), h)
    end
  else if is_ptr (snd l) a then
    match n_prev (h a) with
    | Some b => obind (put_next (Some b) None h) (fun h => Done ((fst l, Some b), h))
    | None => Done ((None, None), h)
    end
  else
    obind (put_next (n_prev (h a)) (n_next (h a)) h) (fun h =>
    obind (put_prev (n_next (h a)) (n_prev (h a)) h) (fun h => Done (l, h))).

(** main.c 703-708 define_table, with the memory. *)
Record table : Type := mktable { lists : Z -> dlist; capacity : Z; mask : Z; amount : Z; mem : memory; fresh : nat }.
Definition put_list (ls : Z -> dlist) (i : Z) (l : dlist) : Z -> dlist := fun j => if j =? i then l else ls j.

(** The array of lists has [capacity] entries; using another one is a crash. *)
Definition inside (i capacity : Z) : bool := (0 <=? i) && (i <? capacity).

(** preprocess.c 354-370 [lookup_define]: the loop over one list.  [fuel] bounds the number
    of nodes; running out of it (a cyclic list) is a crash. *)
Fixpoint find_node (fuel : nat) (h : memory) (p : option nat) (n : name) : outcome (option nat) :=
  match p with
  | None => Done None
  | Some a =>
      match fuel with
      | O => Crash
      | S fuel => if names_match (n_name (h a)) n then Done (Some a) else find_node fuel h (n_next (h a)) n
      end
  end.
Definition lookup_define (t : table) (n : name) : outcome (option nat) :=
  let index := Z.land (string_hash n) (mask t) in
  if inside index (capacity t) then find_node (fresh t) (mem t) (fst (lists t index)) n else Crash.

(** preprocess.c 325-337: move the nodes of one list, then of all lists. *)
Fixpoint move_nodes (fuel : nat) (p : option nat) (new_capacity new_mask : Z) (new : Z -> dlist) (h : memory) : outcome ((Z -> dlist) * memory) :=
  match p with
  | None => Done (new, h)
  | Some a =>
      match fuel with
      | O => Crash
      | S fuel =>
          let next := n_next (h a) in
          let index := Z.land (string_hash (n_name (h a))) new_mask in
          if inside index new_capacity then obind (dll_push_back (new index) a h) (fun '(l, h) => move_nodes fuel next new_capacity new_mask (put_list new index l) h) else Crash
      end
  end.
Fixpoint move_lists (is : list Z) (old : Z -> dlist) (fuel : nat) (new_capacity new_mask : Z) (new : Z -> dlist) (h : memory) : outcome ((Z -> dlist) * memory) :=
  match is with
  | [] => Done (new, h)
  | i :: is => obind (move_nodes fuel (fst (old i)) new_capacity new_mask new h) (fun '(new, h) => move_lists is old fuel new_capacity new_mask new h)
  end.

(** preprocess.c 319-343 *)
Definition grow (t : table) : outcome table :=
  let new_capacity := 2 * Z.max (capacity t) 256 in
  let new_mask := new_capacity - 1 in
  obind (move_lists (map Z.of_nat (seq 0 (Z.to_nat (capacity t)))) (lists t) (fresh t) new_capacity new_mask (fun _ => (None, None)) (mem t)) (fun '(ls, h) =>
    Done (mktable ls new_capacity new_mask (amount t) h (fresh t))).

(** preprocess.c 303-352 [register_define] for a new node. *)
Definition register_define (t : table) (n : name) (d : def) (builtin : bool) : outcome table :=
  let a := fresh t in
  let t := mktable (lists t) (capacity t) (mask t) (amount t) (write (mem t) a (mknode n d builtin None None)) (S a) in
  obind (if 2 * amount t + 1 >? capacity t then grow t else Done t) (fun t =>
    let index := Z.land (string_hash n) (mask t) in
    if inside index (capacity t) then
      obind (dll_push_front (lists t index) a (mem t)) (fun '(l, h) =>
        Done (mktable (put_list (lists t) index l) (capacity t) (mask t) (amount t + 1) h (fresh t)))
    else Crash).

(** preprocess.c 4150-4300: the end of [#define]. *)
Definition define_macro (t : table) (n : name) (d : def) : outcome table :=
  obind (lookup_define t n) (fun redecl =>
    match redecl with
    | None => register_define t n d false
    | Some a =>
        let node := mem t a in
        if n_builtin node then Reported
        else if same d (n_def node) then Done t
        else Done (mktable (lists t) (capacity t) (mask t) (amount t) (write (mem t) a (mknode n d false (n_next node) (n_prev node))) (fresh t))
    end).

(** preprocess.c 4302-4320: [#undef]. *)
Definition undef_macro (t : table) (n : name) : outcome table :=
  obind (lookup_define t n) (fun define =>
    match define with
    | None => Done t
    | Some a =>
        let index := Z.land (string_hash (n_name (mem t a))) (mask t) in
        if inside index (capacity t) then
          obind (dll_remove (lists t index) a (mem t)) (fun '(l, h) =>
            Done (mktable (put_list (lists t) index l) (capacity t) (mask t) (amount t) h (fresh t)))
        else Crash
    end).

Inductive directive : Type := Define (n : name) (d : def) | Undef (n : name).
Fixpoint run (t : table) (ds : list directive) : outcome table :=
  match ds with
  | [] => Done t
  | Define n d :: ds => obind (define_macro t n d) (fun t => run t ds)
  | Undef n :: ds => obind (undef_macro t n) (fun t => run t ds)
  end.

(** main.c 2692-2743: the table at the start of a compilation unit. *)
Fixpoint register_builtins (t : table) (bs : list (name * def)) : outcome table :=
  match bs with
  | [] => Done t
  | (n, d) :: bs => obind (register_define t n d true) (fun t => register_builtins t bs)
  end.
(** memory before anything was allocated; its contents do not matter. *)
Definition start (junk : node) (bs : list (name * def)) : outcome table :=
  register_builtins (mktable (fun _ => (None, None)) 0 0 0 (fun _ => junk) 0) bs.

(** What a lookup gives its caller. *)
Definition definition_of (t : table) (n : name) : outcome (option def) :=
  obind (lookup_define t n) (fun r => Done (match r with None => None | Some a => Some (n_def (mem t a)) end)).
End Macros.
Arguments Define {def}. Arguments Undef {def}.
