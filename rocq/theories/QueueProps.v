(** C18: the work queue is a first-in first-out queue under concurrency. *)
From Coq Require Import Permutation.
From Verif Require Import Base QueueModel QueueSpec QueueProofs.

(** Every execution of any number of threads looks to its callers like an atomic first-in
    first-out queue, as long as no entry is appended again while another thread still compares
    with it.  Missing for the full statement: such reuse (see [C18_reuse_refuted]). *)
Theorem C18_fifo_partial : forall workers schedule, Forall (no_reuse workers) (fst (fst (run workers create schedule))) ->
  exists final, history empty_queue (snd (run workers create schedule)) final.
Proof. intros w cs G. destruct (queue_ok w cs G) as (a & H & _). exists a. exact H. Qed.
Print Assumptions C18_fifo_partial.

(** In particular when no entry is appended twice. *)
Theorem C18_fifo_fresh_partial : forall workers schedule, NoDup (given (snd (run workers create schedule))) ->
  exists final, history empty_queue (snd (run workers create schedule)) final.
Proof. intros w cs N. apply C18_fifo_partial, fresh_no_reuse, N. Qed.
Print Assumptions C18_fifo_fresh_partial.

(** When the calls have returned and the queue is empty, what was handed out is what was handed
    in, each entry as often as it was appended. *)
Theorem C18_exactly_once_partial : forall workers schedule, Forall (no_reuse workers) (fst (fst (run workers create schedule))) ->
  (forall t, threads (snd (fst (run workers create schedule))) t = Idle) -> q_end (snd (fst (run workers create schedule))) = None ->
  Permutation (taken (snd (run workers create schedule))) (given (snd (run workers create schedule))).
Proof. exact exactly_once. Qed.
Print Assumptions C18_exactly_once_partial.

(** The counter is the number of entries in the queue and in the hands of workers, at every
    moment (every schedule can stop anywhere); no worker trips the assertion. *)
Theorem C18_in_flight_partial : forall workers schedule, Forall (no_reuse workers) (fst (fst (run workers create schedule))) ->
  exists final, history empty_queue (snd (run workers create schedule)) final /\
    in_flight (snd (fst (run workers create schedule))) = Z.of_nat (length (contents final)) + carried workers (snd (fst (run workers create schedule))) /\
    (forall t, threads (snd (fst (run workers create schedule))) t <> Fault).
Proof. intros w cs G. destruct (queue_ok w cs G) as (a & H & C & F & _). exists a. auto. Qed.
Print Assumptions C18_in_flight_partial.

(** No call waits for another thread, except for one stopped between the two halves of an
    append: left alone, a thread finishes its call within eight steps. *)
Theorem C18_no_waiting_partial : forall workers schedule t, Forall (no_reuse workers) (fst (fst (run workers create schedule))) -> (t < workers)%nat ->
  (forall u l e, u <> t -> threads (snd (fst (run workers create schedule))) u <> Link l e) ->
  exists k, (k <= 8)%nat /\ threads (snd (fst (run workers (snd (fst (run workers create schedule))) (repeat (Steps t) k)))) t = Idle.
Proof. exact progress_alone. Qed.
Print Assumptions C18_no_waiting_partial.

(** Two threads append, the second between the two halves of the first one's append; a third
    takes everything, and runs into the missing link on the way. *)
Definition many (t k : nat) : list choice := repeat (Steps t) k.
Definition work (t k : nat) : list choice := [Calls t Take] ++ many t k ++ [Calls t Finish] ++ many t 1.
Definition overtaken : list choice :=
  [Calls 0 (Append [1; 2])]%nat ++ many 0 4 ++ [Calls 0 (Append [3])]%nat ++ many 0 3 ++ [Calls 1 (Append [4])]%nat ++ many 1 5 ++
  work 2 5 ++ [Calls 2 Take] ++ many 2 3 ++ many 0 2 ++ many 2 5 ++ [Calls 2 Finish; Steps 2] ++ work 2 5 ++ work 2 5 ++ [Calls 2 Take] ++ many 2 2.
Example C18_case : NoDup (given (snd (run 3 create overtaken))) /\ taken (snd (run 3 create overtaken)) = [1; 2; 3; 4]%nat /\
  in_flight (snd (fst (run 3 create overtaken))) = 0 /\ last (snd (run 3 create overtaken)) (Call 9 Take) = Return 2 Take None.
Proof.
  split; [|vm_compute; auto]. replace (given _) with [1; 2; 3; 4]%nat by (vm_compute; reflexivity). repeat constructor; cbn; intuition discriminate.
Qed.

(** Worker 1 has read that entry 2 follows entry 1 and is stopped; worker 0 takes both, then
    appends 1 and 3; worker 1 takes 1 and makes 2 the front; worker 0 appends 2 again.
    Afterwards the queue hands out 2, says it is empty, and nobody ever gets 3, while the
    counter stays at one. *)
Definition stale : list choice :=
  [Calls 0 (Append [1; 2])]%nat ++ many 0 4 ++ [Calls 1 Take] ++ many 1 3 ++ work 0 5 ++ work 0 3 ++ [Calls 0 (Append [1; 3])]%nat ++ many 0 4 ++
  many 1 2 ++ [Calls 1 Finish; Steps 1] ++ [Calls 0 (Append [2])]%nat ++ many 0 5 ++ work 1 3 ++ [Calls 1 Take] ++ many 1 2.
Theorem C18_reuse_refuted : exists workers schedule, let '(_, s, es) := run workers create schedule in
  q_begin s = None /\ q_end s = None /\ (forall t, (t < workers)%nat -> threads s t = Idle /\ held s t = None) /\
  last es (Call 9 Take) = Return 1 Take None /\ In 3%nat (given es) /\ ~ In 3%nat (taken es) /\ in_flight s = 1.
Proof.
  exists 2%nat, stale. destruct (run 2 create stale) as ((ss, s), es) eqn:E.
  assert (S : s = snd (fst (run 2 create stale))) by (rewrite E; reflexivity). assert (V : es = snd (run 2 create stale)) by (rewrite E; reflexivity). clear E.
  split; [subst; vm_compute; reflexivity|]. split; [subst; vm_compute; reflexivity|].
  split. { intros t T. rewrite S. clear S V. destruct t as [|[|t]]; [vm_compute; auto|vm_compute; auto|lia]. }
  split; [subst; vm_compute; reflexivity|]. split; [rewrite V; vm_compute; intuition auto|]. split; [rewrite V; vm_compute; intuition discriminate|]. subst; vm_compute; reflexivity.
Qed.
Print Assumptions C18_reuse_refuted.
