(** The lock-free work queue (C18): main.c 33-44, 1199-1267 and its use in 3480-3500.

    Any number of threads; one step of one thread is one access to shared memory; sequential
    consistency.  Entries are numbers standing for their addresses, [next] is the field of that
    name in memory.  The event that wakes sleeping threads (main.c 1231) is not modelled, and
    the counter of items is an unbounded integer (64 bits in the code). *)
From Verif Require Import Base.

(** What a worker calls: append a list of entries it has linked (main.c 1202), take an entry
    (main.c 1245), report the entry it took as finished (main.c 3498). *)
Inductive op : Set := Append (l : list nat) | Take | Finish.

Inductive pc : Set :=
  | Idle
  | Count (l : list nat)              (* main.c 1204 *)
  | LoadEnd (l : list nat)            (* main.c 1211 *)
  | SwapEmpty (l : list nat)          (* main.c 1216 *)
  | SwapEnd (l : list nat) (e : nat)  (* main.c 1223 *)
  | Link (l : list nat) (e : nat)     (* main.c 1227 *)
  | Appended (l : list nat)
  | ReadBoth                          (* main.c 1249 *)
  | SwapLast (b : nat)                (* main.c 1257 *)
  | Next (b : nat)                    (* main.c 1262 *)
  | NextAgain (b : nat)               (* main.c 1263, the second load of read.begin->next *)
  | SwapBegin (b : nat) (nx : option nat)  (* main.c 1263 *)
  | Taken (r : option nat)
  | Finishing                         (* main.c 3498 *)
  | Fault.                            (* main.c 1253, failed assert; null dereference *)

(** [held]: the entry a worker is working on (main.c 3481-3498).  [queued] is not in the
    program: the entries handed to [Append] and not taken since, to say which entries a client
    may append. *)
Record state : Type := mkstate {
  q_begin : option nat; q_end : option nat; in_flight : Z; next : nat -> option nat;
  threads : nat -> pc; held : nat -> option nat; queued : list nat }.

Inductive event : Set := Call (t : nat) (o : op) | Return (t : nat) (o : op) (result : option nat).
Inductive choice : Set := Calls (t : nat) (o : op) | Steps (t : nat).

Definition set_pc (s : state) (t : nat) (p : pc) : state :=
  mkstate (q_begin s) (q_end s) (in_flight s) (next s) (fun u => if Nat.eqb u t then p else threads s u) (held s) (queued s).
Definition set_queue (s : state) (b e : option nat) (q : list nat) : state := mkstate b e (in_flight s) (next s) (threads s) (held s) q.
Definition set_flight (s : state) (k : Z) : state := mkstate (q_begin s) (q_end s) k (next s) (threads s) (held s) (queued s).
Definition set_next (s : state) (nx : nat -> option nat) : state := mkstate (q_begin s) (q_end s) (in_flight s) nx (threads s) (held s) (queued s).
Definition set_held (s : state) (t : nat) (h : option nat) : state :=
  mkstate (q_begin s) (q_end s) (in_flight s) (next s) (threads s) (fun u => if Nat.eqb u t then h else held s u) (queued s).
Definition write_next (nx : nat -> option nat) (e : nat) (v : option nat) : nat -> option nat := fun x => if Nat.eqb x e then v else nx x.

(** The caller links the entries of the list, the last one to null (main.c 1241 for one). *)
Fixpoint link_list (nx : nat -> option nat) (l : list nat) : nat -> option nat :=
  match l with
  | [] => nx
  | x :: l => link_list (write_next nx x (hd_error l)) l
  end.

Definition same (a b : option nat) : bool := match a, b with Some x, Some y => Nat.eqb x y | None, None => true | _, _ => false end.
Definition last_entry (l : list nat) : option nat := hd_error (rev l).
Definition remove_entry (x : nat) (l : list nat) : list nat := filter (fun y => negb (Nat.eqb y x)) l.

Definition create : state := mkstate None None 0 (fun _ => None) (fun _ => Idle) (fun _ => None) [].

Definition goto (s : state) (t : nat) (p : pc) : state * list event := (set_pc s t p, []).

(** One step of thread [t]. *)
Definition step (s : state) (t : nat) : state * list event :=
  match threads s t with
  | Idle | Fault => (s, [])
  | Count l => goto (set_flight s (in_flight s + Z.of_nat (length l))) t (LoadEnd l)
  | LoadEnd l => goto s t (match q_end s with None => SwapEmpty l | Some e => SwapEnd l e end)
  | SwapEmpty l =>
      if same (q_begin s) None && same (q_end s) None then goto (set_queue s (hd_error l) (last_entry l) (queued s)) t (Appended l)
      else goto s t (LoadEnd l)
  | SwapEnd l e =>
      if same (q_end s) (Some e) then goto (set_queue s (q_begin s) (last_entry l) (queued s)) t (Link l e)
      else goto s t (LoadEnd l)
  | Link l e => goto (set_next s (write_next (next s) e (hd_error l))) t (Appended l)
  | Appended l => (set_pc s t Idle, [Return t (Append l) None])
  | ReadBoth =>
      match q_begin s, q_end s with
      | None, None => goto s t (Taken None)
      | Some b, Some e => goto s t (if Nat.eqb b e then SwapLast b else Next b)
      | _, _ => goto s t Fault
      end
  | SwapLast b =>
      if same (q_begin s) (Some b) && same (q_end s) (Some b) then goto (set_queue s None None (remove_entry b (queued s))) t (Taken (Some b))
      else goto s t ReadBoth
  | Next b => goto s t (match next s b with None => ReadBoth | Some _ => NextAgain b end)
  | NextAgain b => goto s t (SwapBegin b (next s b))
  | SwapBegin b nx =>
      if same (q_begin s) (Some b) then goto (set_queue s nx (q_end s) (remove_entry b (queued s))) t (Taken (Some b))
      else goto s t ReadBoth
  | Taken r => (set_held (set_pc s t Idle) t r, [Return t Take r])
  | Finishing => (set_held (set_pc (set_flight s (in_flight s - 1)) t Idle) t None, [Return t Finish None])
  end.

Fixpoint distinct (l : list nat) : bool := match l with [] => true | x :: l => negb (existsb (Nat.eqb x) l) && distinct l end.
(** What clients do: append entries that are not in the queue, take when they hold nothing,
    finish what they hold (main.c 3480-3500).  Other calls are ignored. *)
Definition allowed (s : state) (t : nat) (o : op) : bool :=
  match o with
  | Append l => match l with [] => false | _ => true end && distinct l && forallb (fun x => negb (existsb (Nat.eqb x) (queued s))) l
  | Take => match held s t with None => true | Some _ => false end
  | Finish => match held s t with None => false | Some _ => true end
  end.
Definition entry_of (o : op) : pc := match o with Append l => Count l | Take => ReadBoth | Finish => Finishing end.
Definition announce (s : state) (o : op) : state :=
  match o with
  | Append l => set_queue (set_next s (link_list (next s) l)) (q_begin s) (q_end s) (l ++ queued s)
  | _ => s
  end.

Section Run.
Variable workers : nat.
Definition choose (s : state) (c : choice) : state * list event :=
  match c with
  | Steps t => if Nat.ltb t workers then step s t else (s, [])
  | Calls t o =>
      if Nat.ltb t workers then
        match threads s t with Idle => if allowed s t o then (set_pc (announce s o) t (entry_of o), [Call t o]) else (s, []) | _ => (s, []) end
      else (s, [])
  end.

(** An execution: the choices with the states before them, the last state, and the events. *)
Fixpoint run (s : state) (cs : list choice) : list (state * choice) * state * list event :=
  match cs with
  | [] => ([], s, [])
  | c :: cs => let (s', e) := choose s c in let '(ss, z, es) := run s' cs in ((s, c) :: ss, z, e ++ es)
  end.
End Run.
