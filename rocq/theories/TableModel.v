(** The table of global declarations under concurrency (C20): main.c 95-228.

    Any number of threads; one step of one thread is one access to shared memory (interlocked
    operation, load or store), or several loads where noted; sequential consistency.  A thread
    calls an operation at any time when it has none running. *)
From Verif Require Import Base ScopeModel.

(** main.c 84: a node is zero, or a token with its atom and a declaration, which are written
    together by one 16 byte compare-and-swap.  Declarations are numbers standing for their
    addresses. *)
Definition cell := option (name * Z).
(** A block from os_allocate_memory: its number of nodes and the nodes. *)
Record block : Type := mkblock { b_size : Z; b_cell : Z -> cell }.
Definition put_cell (b : block) (i : Z) (c : cell) : block := mkblock (b_size b) (fun j => if j =? i then c else b_cell b j).

(** main.c 152 and 205: the two operations. *)
Inductive op : Set := Add (n : name) (ast : Z) | Get (n : name).
Definition op_name (o : op) : name := match o with Add n _ => n | Get n => n end.

(** Where a thread is.  [index], [i] are the loop variables, [node] the block [table->nodes]
    pointed to when [node] was computed, [old] and [old_capacity] the locals of the growth. *)
Inductive pc : Set :=
  | Idle
  | Wait (o : op)                      (* main.c 154 / 206 *)
  | Check (n : name) (ast : Z)         (* main.c 157 *)
  | Lock (n : name) (ast : Z)          (* main.c 162 *)
  | Recheck (n : name) (ast : Z)       (* main.c 122 *)
  | Drain (n : name) (ast : Z)         (* main.c 125 *)
  | Double (n : name) (ast : Z)        (* main.c 127-129 *)
  | Fresh (n : name) (ast : Z) (old_capacity : Z) (old : nat)     (* main.c 130-135 *)
  | Mask (n : name) (ast : Z) (old_capacity : Z) (old : nat)      (* main.c 136 *)
  | Move (n : name) (ast : Z) (old_capacity : Z) (old : nat) (i : Z)   (* main.c 138-149 *)
  | Free (n : name) (ast : Z) (old : nat)  (* main.c 150 *)
  | Unlock (n : name) (ast : Z)        (* main.c 171 *)
  | Enter (o : op)                     (* main.c 177 / 208 *)
  | Start (o : op)                     (* main.c 182 / 210 *)
  | Head (o : op) (index i : Z)        (* main.c 189-190 / 213-214 *)
  | Read (o : op) (index i : Z) (node : nat)      (* main.c 191 / 215 *)
  | Compare (o : op) (index i : Z) (node : nat) (ast : Z) (* main.c 194 / 221 *)
  | Next (o : op) (index i : Z)        (* main.c 198-199 / 226-227 *)
  | Swap (n : name) (ast : Z) (index i : Z) (node : nat)  (* main.c 201 *)
  | Count (o : op)                     (* main.c 203 *)
  | Leave (o : op) (result : option Z) (* main.c 195, 204 / 218, 222 *)
  | Fault.                             (* invalid_code_path, failed assert, access outside a block *)

(** main.c 95-104, memory and the threads. *)
Record state : Type := mkstate {
  memory : nat -> option block; allocated : nat;
  nodes : nat; amount_of_nodes : Z; table_capacity : Z; mask : Z;
  is_locked : bool; threads_in_flight : Z;
  threads : nat -> pc }.

Definition set_pc (s : state) (t : nat) (p : pc) : state :=
  mkstate (memory s) (allocated s) (nodes s) (amount_of_nodes s) (table_capacity s) (mask s) (is_locked s) (threads_in_flight s)
          (fun u => if Nat.eqb u t then p else threads s u).
Definition set_memory (s : state) (m : nat -> option block) (k : nat) (nd : nat) : state :=
  mkstate m k nd (amount_of_nodes s) (table_capacity s) (mask s) (is_locked s) (threads_in_flight s) (threads s).
Definition set_counters (s : state) (am cap mk : Z) (lock : bool) (flight : Z) : state :=
  mkstate (memory s) (allocated s) (nodes s) am cap mk lock flight (threads s).
Definition set_block (m : nat -> option block) (k : nat) (b : option block) : nat -> option block := fun j => if Nat.eqb j k then b else m j.

(** What a caller sees. *)
Inductive event : Set := Call (t : nat) (o : op) | Return (t : nat) (o : op) (result : option Z).

(** A schedule: which thread takes a step, and when a thread calls something. *)
Inductive choice : Set := Calls (t : nat) (o : op) | Steps (t : nat).

Section Table.
Variable string_hash : name -> Z.

(** main.c 106-119: memory from the system is zero. *)
Definition create (capacity : Z) : state :=
  mkstate (set_block (fun _ => None) 0 (Some (mkblock capacity (fun _ => None)))) 1 0 0 capacity (capacity - 1) false 0 (fun _ => Idle).

(** Read a node: [None] is an access outside the block or to a freed one. *)
Definition load (s : state) (k : nat) (i : Z) : option cell :=
  match memory s k with
  | Some b => if (0 <=? i) && (i <? b_size b) then Some (b_cell b i) else None
  | None => None
  end.

(** main.c 142-148: the first free node from [slot]; none free leaves the node behind. *)
Fixpoint free_slot (b : block) (mk slot : Z) (offsets : nat) : option Z :=
  match offsets with
  | O => None
  | S k => let j := Z.land slot mk in match b_cell b j with None => Some j | Some _ => free_slot b mk (slot + 1) k end
  end.

(** One iteration of main.c 138-149 on old node [i], one step here. *)
Definition move_one (s : state) (old : nat) (i : Z) : option state :=
  match load s old i with
  | Some (Some (n, ast)) =>
      match memory s (nodes s) with
      | Some b =>
          match free_slot b (mask s) (Z.land (string_hash n) (mask s)) (Z.to_nat (table_capacity s)) with
          | Some j => Some (set_memory s (set_block (memory s) (nodes s) (Some (put_cell b j (Some (n, ast))))) (allocated s) (nodes s))
          | None => Some s
          end
      | None => None
      end
  | Some None => Some s
  | None => None
  end.

Definition full (s : state) : bool := Z.shiftr (table_capacity s) 1 <? amount_of_nodes s + 1.
Definition goto (s : state) (t : nat) (p : pc) : state * list event := (set_pc s t p, []).

(** One step of thread [t]. *)
Definition step (s : state) (t : nat) : state * list event :=
  match threads s t with
  | Idle | Fault => (s, [])
  | Wait o => if is_locked s then (s, []) else goto s t (match o with Add n a => Check n a | Get n => Enter (Get n) end)
  | Check n a => goto s t (if full s then Lock n a else Enter (Add n a))
  | Lock n a => if is_locked s then goto s t (Wait (Add n a)) else goto (set_counters s (amount_of_nodes s) (table_capacity s) (mask s) true (threads_in_flight s)) t (Recheck n a)
  | Recheck n a => goto s t (if full s then Drain n a else Unlock n a)
  | Drain n a => if threads_in_flight s =? 0 then goto s t (Double n a) else (s, [])
  | Double n a => goto (set_counters s (amount_of_nodes s) (2 * table_capacity s) (mask s) (is_locked s) (threads_in_flight s)) t (Fresh n a (table_capacity s) (nodes s))
  | Fresh n a oc old =>
      goto (set_memory s (set_block (memory s) (allocated s) (Some (mkblock (table_capacity s) (fun _ => None)))) (S (allocated s)) (allocated s)) t (Mask n a oc old)
  | Mask n a oc old => goto (set_counters s (amount_of_nodes s) (table_capacity s) (table_capacity s - 1) (is_locked s) (threads_in_flight s)) t (Move n a oc old 0)
  | Move n a oc old i =>
      if i <? oc then match move_one s old i with Some s => goto s t (Move n a oc old (i + 1)) | None => goto s t Fault end
      else goto s t (Free n a old)
  | Free n a old => goto (set_memory s (set_block (memory s) old None) (allocated s) (nodes s)) t (Unlock n a)
  | Unlock n a => goto (set_counters s (amount_of_nodes s) (table_capacity s) (mask s) false (threads_in_flight s)) t (Enter (Add n a))
  | Enter o => goto (set_counters s (amount_of_nodes s) (table_capacity s) (mask s) (is_locked s) (threads_in_flight s + 1)) t (Start o)
  | Start o => goto s t (Head o (Z.land (string_hash (op_name o)) (mask s)) 0)
  | Head o index i => goto s t (if i <? table_capacity s then Read o index i (nodes s) else Fault)
  | Read o index i node =>
      match load s node index with
      | Some (Some (_, ast)) => goto s t (Compare o index i node ast)
      | Some None => goto s t (match o with Add n a => Swap n a index i node | Get n => Leave (Get n) None end)
      | None => goto s t Fault
      end
  | Compare o index i node ast =>
      match load s node index with
      | Some (Some (m, _)) => goto s t (if names_match m (op_name o) then Leave o (Some ast) else Next o index i)
      | _ => goto s t Fault
      end
  | Next o index i => goto s t (Head o (Z.land (index + 1) (mask s)) (i + 1))
  | Swap n a index i node =>
      match memory s node with
      | Some b =>
          if (0 <=? index) && (index <? b_size b) then
            match b_cell b index with
            | None => goto (set_memory s (set_block (memory s) node (Some (put_cell b index (Some (n, a))))) (allocated s) (nodes s)) t (Count (Add n a))
            | Some _ => goto s t (Head (Add n a) index (i + 1))
            end
          else goto s t Fault
      | None => goto s t Fault
      end
  | Count o => goto (set_counters s (amount_of_nodes s + 1) (table_capacity s) (mask s) (is_locked s) (threads_in_flight s)) t (Leave o None)
  | Leave o r => (set_pc (set_counters s (amount_of_nodes s) (table_capacity s) (mask s) (is_locked s) (threads_in_flight s - 1)) t Idle, [Return t o r])
  end.

(** A call, ignored while the thread still runs one. *)
Definition choose (s : state) (c : choice) : state * list event :=
  match c with
  | Steps t => step s t
  | Calls t o => match threads s t with Idle => (set_pc s t (Wait o), [Call t o]) | _ => (s, []) end
  end.

(** An execution: the states after each choice, and what the callers saw. *)
Fixpoint run (s : state) (cs : list choice) : list state * list event :=
  match cs with
  | [] => ([s], [])
  | c :: cs => let (s', e) := choose s c in let (ss, es) := run s' cs in (s :: ss, e ++ es)
  end.
End Table.
