(** Loading source files once (C36): preprocess.c 2610-2726 and 2829-2845, main.c 252-262 and
    457-477.

    Any number of threads; one step of one thread is one access to shared memory; sequential
    consistency.  Paths are numbers standing for canonical absolute paths, files are numbers
    standing for the addresses of their records.  Reading the file and [tokenize_raw] are one
    step that cannot fail: with an error in a file the code reports it and clears [in_progress]
    all the same (2685-2725).  The fields [file_index] and [amount_of_times_included] are not
    modelled, and finding the path for an include string is not either. *)
From Verif Require Import Base.

(** Load the file of a path (preprocess.c 2610), or that of an entry of the table of system
    includes (2829). *)
Inductive request : Set := Open (p : nat) | Include (e : nat).

(** main.c 467-470: 0, then 1, then the pointer to the file. *)
Inductive entry_state : Set := Unloaded | Loading | Loaded (f : nat).

(** The optional number is the entry of the system include table the caller will fill. *)
Inductive pc : Set :=
  | Idle
  | Begin (p : nat) (k : option nat)                     (* preprocess.c 2616-2619 *)
  | Probe (p f : nat) (i : Z) (k : option nat)           (* 2621-2624 *)
  | Swap (p f : nat) (i : Z) (k : option nat)            (* 2627 *)
  | Reread (p f : nat) (i : Z) (k : option nat)          (* 2640-2641 *)
  | Compare (p f : nat) (i : Z) (o : nat) (k : option nat)  (* 2644 *)
  | Wait (p o : nat) (k : option nat)                    (* 2647 *)
  | LoadFile (p f : nat) (k : option nat)                    (* 2654-2720 *)
  | Finish (p f : nat) (k : option nat)                  (* 2723 *)
  | Opened (p f : nat) (k : option nat)                  (* 2651, 2725, 2838 *)
  | EntryRead (e : nat)                                  (* 2829 *)
  | EntrySwap (e : nat)                                  (* 2834 *)
  | EntryWait (e : nat)                                  (* 2843 *)
  | EntryGet (e : nat)                                   (* 2845 *)
  | Fault.                                               (* 2641, failed assert *)

Inductive event : Set :=
  | Call (t : nat) (r : request)
  | Tokenise (t f p : nat)
  | Return (t : nat) (r : request) (f : option nat).
Inductive choice : Set := Calls (t : nat) (r : request) | Steps (t : nat).

(** [trace] is not in the program: what has happened, oldest first. *)
Record state : Type := mkstate {
  slot : Z -> option nat; path : nat -> nat; in_progress : nat -> bool; tokens : nat -> bool;
  fresh : nat; entry : nat -> entry_state; threads : nat -> pc; trace : list event }.

Definition upd {A : Type} (f : nat -> A) (x : nat) (v : A) : nat -> A := fun y => if Nat.eqb y x then v else f y.
Definition set_slot (f : Z -> option nat) (x : Z) (v : option nat) : Z -> option nat := fun y => if y =? x then v else f y.

Definition goto (s : state) (t : nat) (p : pc) : state :=
  mkstate (slot s) (path s) (in_progress s) (tokens s) (fresh s) (entry s) (upd (threads s) t p) (trace s).
Definition emit (s : state) (e : event) : state :=
  mkstate (slot s) (path s) (in_progress s) (tokens s) (fresh s) (entry s) (threads s) (trace s ++ [e]).

Section Loader.
(** [capacity]: 0x10000 slots; [hash]: [string_djb2_hash]; [entry_path]: the field
    [absolute_file_path] of the entries. *)
Variables (capacity : Z) (hash : nat -> Z) (entry_path : nat -> nat).

Definition index (p : nat) (i : Z) : Z := Z.land (i + hash p) (capacity - 1).

Definition create : state :=
  mkstate (fun _ => None) (fun _ => O) (fun _ => false) (fun _ => false) O (fun _ => Unloaded) (fun _ => Idle) [].

(** One step of thread [t]. *)
Definition step (s : state) (t : nat) : state :=
  match threads s t with
  | Idle | Fault => s
  | Begin p k =>
      goto (mkstate (slot s) (upd (path s) (fresh s) p) (upd (in_progress s) (fresh s) true) (upd (tokens s) (fresh s) false) (S (fresh s)) (entry s) (threads s) (trace s))
        t (Probe p (fresh s) 0 k)
  | Probe p f i k =>
      if i <? capacity then goto s t (match slot s (index p i) with None => Swap p f i k | Some o => Compare p f i o k end)
      else goto s t (LoadFile p f k)
  | Swap p f i k =>
      match slot s (index p i) with
      | None => goto (mkstate (set_slot (slot s) (index p i) (Some f)) (path s) (in_progress s) (tokens s) (fresh s) (entry s) (threads s) (trace s)) t (LoadFile p f k)
      | Some _ => goto s t (Reread p f i k)
      end
  | Reread p f i k => goto s t (match slot s (index p i) with Some o => Compare p f i o k | None => Fault end)
  | Compare p f i o k => goto s t (if Nat.eqb p (path s o) then Wait p o k else Probe p f (i + 1) k)
  | Wait p o k => if in_progress s o then s else goto s t (Opened p o k)
  | LoadFile p f k =>
      goto (emit (mkstate (slot s) (path s) (in_progress s) (upd (tokens s) f true) (fresh s) (entry s) (threads s) (trace s)) (Tokenise t f p)) t (Finish p f k)
  | Finish p f k =>
      goto (mkstate (slot s) (path s) (upd (in_progress s) f false) (tokens s) (fresh s) (entry s) (threads s) (trace s)) t (Opened p f k)
  | Opened p f k =>
      match k with
      | None => goto (emit s (Return t (Open p) (Some f))) t Idle
      | Some e => goto (mkstate (slot s) (path s) (in_progress s) (tokens s) (fresh s) (upd (entry s) e (Loaded f)) (threads s) (trace s)) t (EntryWait e)
      end
  | EntryRead e => goto s t (match entry s e with Unloaded => EntrySwap e | _ => EntryWait e end)
  | EntrySwap e =>
      match entry s e with
      | Unloaded => goto (mkstate (slot s) (path s) (in_progress s) (tokens s) (fresh s) (upd (entry s) e Loading) (threads s) (trace s)) t (Begin (entry_path e) (Some e))
      | _ => goto s t (EntryWait e)
      end
  | EntryWait e => match entry s e with Loading => s | _ => goto s t (EntryGet e) end
  | EntryGet e => goto (emit s (Return t (Include e) (match entry s e with Loaded f => Some f | _ => None end))) t Idle
  end.

Definition start (r : request) : pc := match r with Open p => Begin p None | Include e => EntryRead e end.
Definition choose (s : state) (c : choice) : state :=
  match c with
  | Steps t => step s t
  | Calls t r => match threads s t with Idle => goto (emit s (Call t r)) t (start r) | _ => s end
  end.
Definition run (cs : list choice) : state := fold_left choose cs create.
End Loader.
