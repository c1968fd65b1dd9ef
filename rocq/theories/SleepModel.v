(** The stage that parses the declarations at global scope (C19): main.c 1325-1517, 1804-2021, 2061-2167,
    3178-3250, 3480-3500, 5000, parse.c 2680-2760, 2850-2880, 4842-4850, 5698-5726.

    Any number of threads; one step of one thread is one access to shared memory, or several loads where
    noted; sequential consistency.  The work queue and the table of declarations are atomic here: that is C18
    and C20.  Entries of the queue are numbers, the positions of the declarations in the program.  A declaration
    is the list of what its parsing looks up and registers (SleepSpec.v); errors are not modelled, they end the
    compilation. *)
From Coq Require Import List Bool Arith. Import ListNotations.
From Verif Require Import SleepSpec.

(** main.c 63 [enum sleep_purpose] *)
Inductive purpose : Set := On_decl | On_array_size | On_struct.
(** Which table: main.c 397 [globals.declaration_sleeper_table], 403 [globals.compound_sleeper_table],
    378 [static_sleeper_table] of a unit; also which table of declarations (main.c 1313-1323). *)
Inductive space : Set := Global | Compounds | Static (u : nat).
Record key : Set := mkkey { k_space : space; k_atom : atom; k_purpose : purpose }.

Definition purpose_eqb (p q : purpose) : bool :=
  match p, q with On_decl, On_decl | On_array_size, On_array_size | On_struct, On_struct => true | _, _ => false end.
Definition space_eqb (p q : space) : bool :=
  match p, q with Global, Global | Compounds, Compounds => true | Static u, Static v => Nat.eqb u v | _, _ => false end.
Definition key_eqb (p q : key) : bool :=
  space_eqb (k_space p) (k_space q) && Nat.eqb (k_atom p) (k_atom q) && purpose_eqb (k_purpose p) (k_purpose q).

(** main.c 53: a node of the table, [sleepers = None]: its list is null, it was "deleted".  A list stands for
    the entries linked by [next]. *)
Record node : Set := mknode { n_key : key; sleepers : option (list nat) }.
(** main.c 71.  [copying]: a thread is at main.c 1355-1382 (not a field of the table). *)
Record table : Set := mktable {
  nodes : list (option node); amount_of_nodes : nat; is_locked : bool; threads_in_flight : nat; copying : bool }.
Definition capacity (t : table) : nat := length (nodes t).

(** What is behind a call of [wake_up_sleepers]. *)
Inductive continuation : Set :=
| Go_on (e j : nat)               (* parse on *)
| Then_sleep (e : nat) (k : key)  (* parse.c 2715-2751 while the declaration has to sleep *)
| Then_set (e j : nat) (k : key). (* main.c 2054, after parse.c 2751 *)
Inductive operation : Set := Sleep (e : nat) | Wake (c : continuation).

(** Where a thread is.  [i], [index] are the loop variables, [expected] is what it read. *)
Inductive pc : Set :=
| Idle
| Parse (e j : nat)                        (* at action [j] of the declaration *)
| Set_size (e j : nat) (k : key)           (* main.c 2054 *)
| Grow_check (o : operation) (k : key)     (* main.c 1337-1339 *)
| Grow_lock (o : operation) (k : key)      (* main.c 1343 *)
| Grow_recheck (o : operation) (k : key)   (* main.c 1350 *)
| Grow_wait (o : operation) (k : key)      (* main.c 1353 *)
| Grow_copy (o : operation) (k : key)      (* main.c 1355-1382 *)
| Grow_unlock (o : operation) (k : key)    (* main.c 1386 *)
| Enter (o : operation) (k : key)          (* main.c 1395, 1455 *)
| Probe (o : operation) (k : key) (i index : nat)    (* main.c 1408-1415, 1466-1480 *)
| Load (e : nat) (k : key) (index : nat)             (* main.c 1421 *)
| Push (e : nat) (k : key) (index : nat) (expected : list nat)   (* main.c 1433 *)
| Requeue (e : nat) (k : key)                        (* main.c 1426 *)
| Insert (o : operation) (k : key) (i index : nat)   (* main.c 1442, 1469 *)
| Count (o : operation) (k : key)                    (* main.c 1444, 1471 *)
| Swap (c : continuation) (k : key) (i index : nat) (expected : option (list nat))  (* main.c 1482-1490 *)
| Leave (o : operation) (k : key) (result : list nat)  (* main.c 1445, 1472, 1486, 1493 *)
| Append (c : continuation) (result : list nat)      (* main.c 1511-1516 *)
| Finish (done : option nat)                         (* main.c 3497 *)
| Fault (held : list nat).   (* invalid_code_path, or use of a table while it is copied and freed *)

(** [decls]: the registered identifiers and structures with their static flag; [sizes]: the arrays whose size is
    known. *)
Record state : Set := mkstate {
  queue : list nat; in_flight : nat; finished : list nat;
  decls : list (space * atom * bool); sizes : list (space * atom);
  tables : list table; threads : list pc }.

Definition upd {A} (i : nat) (x : A) (l : list A) : list A := firstn i l ++ match skipn i l with [] => [] | _ :: r => x :: r end.

Definition set_pc (s : state) (i : nat) (p : pc) : state :=
  mkstate (queue s) (in_flight s) (finished s) (decls s) (sizes s) (tables s) (upd i p (threads s)).
Definition set_queue (s : state) (q : list nat) (n : nat) (f : list nat) : state :=
  mkstate q n f (decls s) (sizes s) (tables s) (threads s).
Definition set_facts (s : state) (d : list (space * atom * bool)) (z : list (space * atom)) : state :=
  mkstate (queue s) (in_flight s) (finished s) d z (tables s) (threads s).

(** The position of a table. *)
Definition number (x : space) : nat := match x with Global => 0 | Compounds => 1 | Static u => 2 + u end.
Definition get_table (s : state) (x : space) : option table := nth_error (tables s) (number x).
Definition set_table (s : state) (x : space) (t : table) : state :=
  mkstate (queue s) (in_flight s) (finished s) (decls s) (sizes s) (upd (number x) t (tables s)) (threads s).
Definition set_nodes (t : table) (l : list (option node)) : table :=
  mktable l (amount_of_nodes t) (is_locked t) (threads_in_flight t) (copying t).
Definition set_growth (t : table) (n : nat) (l : bool) (f : nat) (c : bool) : table := mktable (nodes t) n l f c.

(** main.c 1313-1323, 1837: in which table an identifier is registered and looked up; main.c 3240-3245: in which
    table its sleepers are. *)
Section Stage.
Variable is_token_static : nat -> atom -> bool.
(** main.c 1396, 1456: [string_hash + 0x1337 * sleep_purpose]; any function here. *)
Variable hash : atom -> purpose -> nat.
Variable p : program.

Definition declaration_space (u : nat) (a : atom) : space := if is_token_static u a then Static u else Global.
Definition sleeper_space (u : nat) (q : purpose) (a : atom) : space :=
  match q with On_struct => Compounds | _ => if is_token_static u a then Static u else Global end.

(** The static flag of the registered declaration. *)
Definition lookup (s : state) (x : space) (a : atom) : option bool :=
  match find (fun d => space_eqb (fst (fst d)) x && Nat.eqb (snd (fst d)) a) (decls s) with
  | Some d => Some (snd d)
  | None => None
  end.
Definition size_known (s : state) (x : space) (a : atom) : bool :=
  existsb (fun d => space_eqb (fst d) x && Nat.eqb (snd d) a) (sizes s).

(** parse.c 4842-4850, 8388-8399: identifiers; 868-880: structures; 5698-5726: sizes of arrays.  The key to sleep
    on, if something is missing. *)
Definition missing (s : state) (u : nat) (d : demand) : option key :=
  match d with
  | Identifier a =>
      match lookup s (declaration_space u a) a with
      | Some _ => None
      | None => Some (mkkey (sleeper_space u On_decl a) a On_decl)
      end
  | Compound a =>
      match lookup s Compounds a with
      | Some _ => None
      | None => Some (mkkey (sleeper_space u On_struct a) a On_struct)
      end
  | Array_size a =>
      match lookup s (declaration_space u a) a with
      | None => Some (mkkey (sleeper_space u On_decl a) a On_decl)
      | Some _ => if size_known s (declaration_space u a) a then None
                  else Some (mkkey (sleeper_space u On_array_size a) a On_array_size)
      end
  end.

(** main.c 1864-1866, parse.c 2748-2751: the table for sleepers on the size of an array is chosen by the static
    flag of the registered declaration. *)
Definition wake_key (u : nat) (flag : bool) (a : atom) : key :=
  mkkey (if flag then Static u else Global) a On_array_size.

Definition sleep (e : nat) (k : key) : pc := Grow_check (Sleep e) k.

(** One action of declaration [e].  A registration and the test for a redeclaration are one step (C20). *)
Definition perform (s : state) (i e j u : nat) (x : action) : state :=
  let next := Parse e (S j) in
  match x with
  | Need d =>
      match missing s u d with
      | None => set_pc s i next
      | Some k => set_pc s i (sleep e k)
      end
  | Declare a flag =>
      (* main.c 1804-2021 [register_declaration] *)
      let x := declaration_space u a in
      match lookup s x a with
      | Some _ => set_pc s i next
      | None => set_pc (set_facts s ((x, a, flag) :: decls s) (sizes s)) i (Grow_check (Wake (Go_on e (S j))) (mkkey x a On_decl))
      end
  | Declare_array a flag =>
      let x := declaration_space u a in
      match lookup s x a with
      | Some old =>
          if size_known s x a then set_pc s i next
          else set_pc (set_facts s (decls s) ((x, a) :: sizes s)) i (Grow_check (Wake (Go_on e (S j))) (wake_key u old a))
      | None => set_pc (set_facts s ((x, a, flag) :: decls s) ((x, a) :: sizes s)) i (Grow_check (Wake (Go_on e (S j))) (mkkey x a On_decl))
      end
  | Define_compound a =>
      (* main.c 2061-2167 [register_compound_type] *)
      match lookup s Compounds a with
      | Some _ => set_pc s i next
      | None => set_pc (set_facts s ((Compounds, a, false) :: decls s) (sizes s)) i (Grow_check (Wake (Go_on e (S j))) (mkkey Compounds a On_struct))
      end
  | Need_in_list a d =>
      (* parse.c 2715-2751: [parse_initializer] goes on behind the list and wakes up the sleepers *)
      match missing s u d with
      | None => set_pc s i next
      | Some k =>
          let x := declaration_space u a in
          match lookup s x a with
          | Some old =>
              if size_known s x a then set_pc s i (sleep e k)
              else set_pc s i (Grow_check (Wake (Then_sleep e k)) (wake_key u old a))
          | None => set_pc s i (sleep e k)
          end
      end
  | Initialize_list a =>
      (* parse.c 2721-2752, then 2878 and main.c 2054 *)
      let x := declaration_space u a in
      match lookup s x a with
      | Some old =>
          if size_known s x a then set_pc s i next
          else set_pc s i (Grow_check (Wake (Then_set e j (mkkey x a On_array_size))) (wake_key u old a))
      | None => set_pc s i next
      end
  | Initialize_string a =>
      (* parse.c 2835-2839, 2878 and main.c 2054 *)
      let x := declaration_space u a in
      match lookup s x a with
      | Some _ => if size_known s x a then set_pc s i next
                  else set_pc (set_facts s (decls s) ((x, a) :: sizes s)) i next
      | None => set_pc s i next
      end
  end.

Definition resume (c : continuation) : pc :=
  match c with
  | Go_on e j => Parse e j
  | Then_sleep e k => sleep e k
  | Then_set e j k => Set_size e j k
  end.

Definition entry_of (c : continuation) : nat := match c with Go_on e _ | Then_sleep e _ | Then_set e _ _ => e end.
Definition operation_entry (o : operation) : nat := match o with Sleep e => e | Wake c => entry_of c end.

(** main.c 1350 *)
Definition full (t : table) : bool := Nat.div2 (capacity t) <? S (amount_of_nodes t).

Definition start (t : table) (k : key) : nat := hash (k_atom k) (k_purpose k) mod capacity t.
Definition next_index (t : table) (index : nat) : nat := S index mod capacity t.

(** main.c 1370-1379: the first free node from [index]; a node that finds none is left behind. *)
Fixpoint place (fuel index : nat) (n : node) (l : list (option node)) : list (option node) :=
  match fuel with
  | O => l
  | S fuel =>
      match nth_error l index with
      | Some None => upd index (Some n) l
      | _ => place fuel (S index mod length l) n l
      end
  end.
Definition place_hashed (l : list (option node)) (n : node) : list (option node) :=
  place (length l) (hash (k_atom (n_key n)) (k_purpose (n_key n)) mod length l) n l.
(** main.c 1355-1382: memory from the system is zero. *)
Definition grow (l : list (option node)) : list (option node) :=
  fold_left (fun l n => match n with Some n => place_hashed l n | None => l end) l (repeat None (2 * length l)).

(** The compare-and-swap compares the pointers to the first sleepers. *)
Definition same_head (a b : option (list nat)) : bool :=
  match a, b with
  | None, None => true
  | Some (x :: _), Some (y :: _) => Nat.eqb x y
  | _, _ => false
  end.

Definition in_table (s : state) (k : key) (lost : list nat) (i : nat) (f : table -> state) : state :=
  match get_table s (k_space k) with Some t => f t | None => set_pc s i (Fault lost) end.

Definition update_table (s : state) (k : key) (t : table) (i : nat) (q : pc) : state := set_pc (set_table s (k_space k) t) i q.

(** The node at [index], if its key is [k]. *)
Definition node_at (t : table) (index : nat) : option node :=
  match nth_error (nodes t) index with Some (Some n) => Some n | _ => None end.

Definition step (s : state) (i : nat) : state :=
  match nth_error (threads s) i with
  | None => s
  | Some q =>
      match q with
      | Idle =>
          (* main.c 3481: [work_queue_get_work] *)
          match queue s with
          | [] => s
          | e :: r => set_pc (set_queue s r (in_flight s) (finished s)) i (Parse e 0)
          end
      | Parse e j =>
          match nth_error p e with
          | None => set_pc s i (Fault [e])
          | Some d =>
              match nth_error (actions d) j with
              | None => set_pc s i (Finish (Some e))
              | Some x => perform s i e j (in_unit d) x
              end
          end
      | Set_size e j k => set_pc (set_facts s (decls s) ((k_space k, k_atom k) :: sizes s)) i (Parse e (S j))
      | Grow_check o k =>
          (* the loads of is_locked_for_growing, amount_of_nodes and capacity are one step *)
          in_table s k [operation_entry o] i (fun t =>
            if is_locked t then s else set_pc s i (if full t then Grow_lock o k else Enter o k))
      | Grow_lock o k =>
          in_table s k [operation_entry o] i (fun t =>
            if is_locked t then set_pc s i (Grow_check o k)
            else update_table s k (set_growth t (amount_of_nodes t) true (threads_in_flight t) (copying t)) i (Grow_recheck o k))
      | Grow_recheck o k =>
          in_table s k [operation_entry o] i (fun t => set_pc s i (if full t then Grow_wait o k else Grow_unlock o k))
      | Grow_wait o k =>
          in_table s k [operation_entry o] i (fun t =>
            if threads_in_flight t =? 0
            then update_table s k (set_growth t (amount_of_nodes t) (is_locked t) 0 true) i (Grow_copy o k)
            else s)
      | Grow_copy o k =>
          in_table s k [operation_entry o] i (fun t =>
            update_table s k (mktable (grow (nodes t)) (amount_of_nodes t) (is_locked t) (threads_in_flight t) false) i (Grow_unlock o k))
      | Grow_unlock o k =>
          in_table s k [operation_entry o] i (fun t =>
            update_table s k (set_growth t (amount_of_nodes t) false (threads_in_flight t) (copying t)) i (Enter o k))
      | Enter o k =>
          in_table s k [operation_entry o] i (fun t =>
            if copying t then set_pc s i (Fault [operation_entry o])
            else update_table s k (set_growth t (amount_of_nodes t) (is_locked t) (S (threads_in_flight t)) (copying t)) i (Probe o k 0 (start t k)))
      | Probe o k n index =>
          in_table s k [operation_entry o] i (fun t =>
            if n <? capacity t
            then match node_at t index with
                 | None => set_pc s i (Insert o k n index)
                 | Some m =>
                     if key_eqb (n_key m) k
                     then set_pc s i (match o with Sleep e => Load e k index | Wake c => Swap c k n index (sleepers m) end)
                     else set_pc s i (Probe o k (S n) (next_index t index))
                 end
            else set_pc s i (Fault [operation_entry o]))
      | Load e k index =>
          in_table s k [e] i (fun t =>
            match node_at t index with
            | Some m => set_pc s i (match sleepers m with None => Requeue e k | Some l => Push e k index l end)
            | None => set_pc s i (Fault [e])
            end)
      | Push e k index l =>
          in_table s k [e] i (fun t =>
            match node_at t index with
            | Some m =>
                if same_head (sleepers m) (Some l)
                then update_table s k (set_nodes t (upd index (Some (mknode (n_key m) (Some (e :: l)))) (nodes t))) i (Leave (Sleep e) k [])
                else set_pc s i (Load e k index)
            | None => set_pc s i (Fault [e])
            end)
      | Requeue e k => set_pc (set_queue s (queue s ++ [e]) (S (in_flight s)) (finished s)) i (Leave (Sleep e) k [])
      | Insert o k n index =>
          in_table s k [operation_entry o] i (fun t =>
            match node_at t index with
            | None => update_table s k (set_nodes t (upd index (Some (mknode k (match o with Sleep e => Some [e] | Wake _ => None end))) (nodes t))) i (Count o k)
            | Some _ => set_pc s i (Probe o k (S n) index)
            end)
      | Count o k =>
          in_table s k (match o with Sleep _ => [] | Wake c => [entry_of c] end) i (fun t =>
            update_table s k (set_growth t (S (amount_of_nodes t)) (is_locked t) (threads_in_flight t) (copying t)) i (Leave o k []))
      | Swap c k n index expected =>
          in_table s k [entry_of c] i (fun t =>
            match node_at t index with
            | Some m =>
                if same_head (sleepers m) expected
                then update_table s k (set_nodes t (upd index (Some (mknode (n_key m) None)) (nodes t))) i
                       (Leave (Wake c) k (match expected with Some l => l | None => [] end))
                else set_pc s i (Probe (Wake c) k (S n) index)
            | None => set_pc s i (Fault [entry_of c])
            end)
      | Leave o k l =>
          in_table s k (match o with Sleep _ => [] | Wake c => entry_of c :: l end) i (fun t =>
            update_table s k (set_growth t (amount_of_nodes t) (is_locked t) (pred (threads_in_flight t)) (copying t)) i
              (match o with
               | Sleep _ => Finish None
               | Wake c => match l with [] => resume c | _ => Append c l end
               end))
      | Append c l => set_pc (set_queue s (queue s ++ l) (length l + in_flight s) (finished s)) i (resume c)
      | Finish f =>
          set_pc (set_queue s (queue s) (pred (in_flight s)) (match f with Some e => e :: finished s | None => finished s end)) i Idle
      | Fault _ => s
      end
  end.

Fixpoint run (schedule : list nat) (s : state) : state :=
  match schedule with [] => s | i :: r => run r (step s i) end.

(** main.c 1325, 4533, 4889: empty tables; 3204: all declarations are in the queue, in some order. *)
Definition empty_table (n : nat) : table := mktable (repeat None n) 0 false 0 false.
Definition initial (order : list nat) (units capacity number_of_threads : nat) : state :=
  mkstate order (length order) [] [] [] (repeat (empty_table capacity) (2 + units)) (repeat Idle number_of_threads).

(** main.c 5000: the main thread leaves the stage. *)
Definition ended (s : state) : bool := in_flight s =? 0.
(** No thread ran into an assertion or used a table that another thread was copying. *)
Definition faultless (s : state) : Prop := forall l, ~ In (Fault l) (threads s).
(** The entries that sleep in the tables when the stage is over: explain.c 60-73 reports them. *)
Definition asleep (s : state) : list nat :=
  flat_map (fun t => flat_map (fun n => match n with Some (mknode _ (Some l)) => l | _ => [] end) (nodes t)) (tables s).
End Stage.
