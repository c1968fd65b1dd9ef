(** What C18 asks for: the queue is an atomic first-in first-out list, and the counter counts
    what is in it or being worked on. *)
From Verif Require Import Base QueueModel.

Inductive status : Set := Ready | Pending (o : op) | Ended (o : op) (result : option nat).
Record atomic : Type := mkatomic { contents : list nat; client : nat -> status }.
Definition set_client (a : atomic) (t : nat) (x : status) : atomic := mkatomic (contents a) (fun u => if Nat.eqb u t then x else client a u).

Definition effect (q : list nat) (o : op) : list nat * option nat :=
  match o with
  | Append l => (q ++ l, None)
  | Take => match q with [] => ([], None) | x :: q => (q, Some x) end
  | Finish => (q, None)
  end.

(** Histories of calls and returns of an atomic queue. *)
Inductive history : atomic -> list event -> atomic -> Prop :=
  | h_end : forall a, history a [] a
  | h_call : forall a t o es b, client a t = Ready -> history (set_client a t (Pending o)) es b -> history a (Call t o :: es) b
  | h_effect : forall a t o es b, client a t = Pending o ->
      history (set_client (mkatomic (fst (effect (contents a) o)) (client a)) t (Ended o (snd (effect (contents a) o)))) es b -> history a es b
  | h_return : forall a t o r es b, client a t = Ended o r -> history (set_client a t Ready) es b -> history a (Return t o r :: es) b.

Definition empty_queue : atomic := mkatomic [] (fun _ => Ready).

(** No entry is appended again while a thread that has read its [next] field is about to
    compare [begin] with it.  (A call that is not allowed does nothing.) *)
Definition no_reuse (workers : nat) (x : state * choice) : Prop :=
  match snd x with
  | Calls t (Append l) => (t < workers)%nat -> threads (fst x) t = Idle -> allowed (fst x) t (Append l) = true ->
      forall e u, In e l -> match threads (fst x) u with NextAgain b | SwapBegin b _ => b <> e | _ => True end
  | _ => True
  end.

(** The items a worker answers for: announced but not yet in the queue, taken but not yet
    returned, and the one it holds. *)
Definition carries (s : state) (t : nat) : Z :=
  match threads s t with
  | LoadEnd l | SwapEmpty l | SwapEnd l _ => Z.of_nat (length l)
  | Taken (Some _) => 1
  | _ => 0
  end + match held s t with Some _ => 1 | None => 0 end.
Definition carried (workers : nat) (s : state) : Z := fold_right Z.add 0 (map (carries s) (seq 0 workers)).

(** The entries handed in and the entries handed out, in the order of the events. *)
Definition given (es : list event) : list nat := flat_map (fun e => match e with Call _ (Append l) => l | _ => [] end) es.
Definition taken (es : list event) : list nat := flat_map (fun e => match e with Return _ Take (Some x) => [x] | _ => [] end) es.
