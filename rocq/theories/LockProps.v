(** C30: the spin lock excludes and is fair.  Fewer than 2^64 threads; every interleaving. *)
From Verif Require Import Base LockModel LockProofs.

Theorem C30_mutual_exclusion : forall n trace s i j, Z.of_nat n < 2 ^ 64 -> execution n trace s ->
  nth_error (threads s) i = Some Inside -> nth_error (threads s) j = Some Inside -> i = j.
Proof. intros n t s i j N E. destruct (lock_inv n t s N E) as (W & ins & q & I). eapply linv_exclusive; eauto. Qed.
Print Assumptions C30_mutual_exclusion.

(** Threads enter exactly in the order of their requests; those who have not entered yet
    are the spinning ones. *)
Theorem C30_first_come_first_served : forall n trace s, Z.of_nat n < 2 ^ 64 -> execution n trace s ->
  exists waiting, requests trace = enters trace ++ waiting /\
    (forall i, In i waiting <-> exists ticket, nth_error (threads s) i = Some (Spinning ticket)).
Proof. intros n t s N E. destruct (lock_inv n t s N E) as (W & ins & q & I). eapply linv_fifo; eauto. Qed.
Print Assumptions C30_first_come_first_served.

(** No deadlock: while somebody waits, either a thread is inside (and may leave) or one may enter. *)
Theorem C30_no_deadlock : forall n trace s, Z.of_nat n < 2 ^ 64 -> execution n trace s ->
  (exists i ticket, nth_error (threads s) i = Some (Spinning ticket)) ->
  exists i s', lock_step s (Leave i) s' \/ lock_step s (Enter i) s'.
Proof. intros n t s N E H. destruct (lock_inv n t s N E) as (W & ins & q & I). eapply linv_progress; eauto. Qed.
Print Assumptions C30_no_deadlock.

(** Two threads: both request, the first is inside, the second waits. *)
Example C30_ex : exists s, execution 2 [Request 1; Request 0; Enter 1] s /\
  nth_error (threads s) 1 = Some Inside /\ nth_error (threads s) 0 = Some (Spinning 1).
Proof.
  eexists. split.
  - eapply (exec_step 2 [Request 1; Request 0]).
    + eapply (exec_step 2 [Request 1]).
      * eapply (exec_step 2 []); [apply exec_start|]. apply step_request. reflexivity.
      * apply step_request. reflexivity.
    + apply step_enter with (my_ticket := 0); reflexivity.
  - split; vm_compute; reflexivity.
Qed.
