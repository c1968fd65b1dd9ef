(** Model of the ticket lock, std.c 1753-1775, as a transition system over any number of
    threads.  Atomic instructions and the volatile load are single steps (sequential
    consistency; the hardware's memory model is not modelled).  Counters are 64-bit. *)
From Verif Require Import Base.

(** Where a thread is: outside, spinning in [ticket_spinlock_lock] with a ticket (1768-1771),
    inside the critical section. *)
Inductive thread : Set := Outside | Spinning (my_ticket : Z) | Inside.

(** std.c 1753-1756 and the threads. *)
Record system : Set := mksystem { tickets_given_out : Z; ticket_in_work : Z; threads : list thread }.

Fixpoint set_thread (i : nat) (t : thread) (l : list thread) : list thread :=
  match i, l with O, _ :: r => t :: r | S i, x :: r => x :: set_thread i t r | _, [] => [] end.

Inductive event : Set := Request (i : nat) | Enter (i : nat) | Leave (i : nat).

(** One step of one thread; the load that does not see its ticket changes nothing and is
    not listed. *)
Inductive lock_step : system -> event -> system -> Prop :=
(* std.c 1767: s64 my_ticket = atomic_postincrement(&mutex->tickets_given_out); *)
| step_request : forall g w l i, nth_error l i = Some Outside ->
    lock_step (mksystem g w l) (Request i) (mksystem (wraps 64 (g + 1)) w (set_thread i (Spinning g) l))
(* std.c 1768: atomic_load(ticket_in_work) == my_ticket *)
| step_enter : forall g w l i my_ticket, nth_error l i = Some (Spinning my_ticket) -> w = my_ticket ->
    lock_step (mksystem g w l) (Enter i) (mksystem g w (set_thread i Inside l))
(* std.c 1774: atomic_preincrement(&mutex->ticket_in_work); *)
| step_leave : forall g w l i, nth_error l i = Some Inside ->
    lock_step (mksystem g w l) (Leave i) (mksystem g (wraps 64 (w + 1)) (set_thread i Outside l)).

(** A zero-initialised lock and [n] threads. *)
Definition initial (n : nat) : system := mksystem 0 0 (repeat Outside n).

(** Executions with their events, newest last. *)
Inductive execution (n : nat) : list event -> system -> Prop :=
| exec_start : execution n [] (initial n)
| exec_step : forall t s e s', execution n t s -> lock_step s e s' -> execution n (t ++ [e]) s'.
