(** C16: the register allocator serves every request of a client that keeps to the rules of ServeSpec.v. *)
From Coq Require Import List ZArith Bool Lia.
From Verif Require Import Base EmitModel AllocModel AllocSpec ServeSpec ServeProofs.
Import ListNotations.
Open Scope Z_scope.

(** No assert of the allocator fails and it never runs out of registers, whatever was requested before and however many values
    are live, as long as the stack frame cannot exceed 2 GB (a request spills at most seven values of at most 16 bytes each). *)
Theorem C16_polite_requests_are_served : forall stack_space n qs c q,
  history stack_space n qs c -> sensible q -> polite (books qs) c q ->
  0 <= stack_space -> stack_space + 112 * (Z.of_nat (length qs) + 1) <= 2 ^ 31 ->
  exists c', serve stack_space q c = Done c'.
Proof. exact served. Qed.
Print Assumptions C16_polite_requests_are_served.

(** The first value is in the stack frame, the second in a register and locked. *)
Definition busy : list request := [Make 4 5; Spill_all; Make 8 6; Lock 1].
Lemma one_more : forall ss n qs c q c', history ss n qs c -> sensible q -> polite (books qs) c q -> serve ss q c = Done c' ->
  history ss n (qs ++ [q]) c'.
Proof. intros. eapply and_then; eauto. Qed.
Example C16_served_applies : exists c, history 32 0 busy c /\ sensible (Load 0) /\ polite (books busy) c (Load 0) /\
  place_of c 0 = Some (In_slot (-36) 4) /\ exists c', serve 32 (Load 0) c = Done c'.
Proof.
  assert (H : exists c, history 32 0 busy c /\ place_of c 0 = Some (In_slot (-36) 4)).
  { eexists. split.
    - change busy with ((((([] ++ [Make 4 5]) ++ [Spill_all]) ++ [Make 8 6]) ++ [Lock 1])).
      eapply one_more; [eapply one_more; [eapply one_more; [eapply one_more; [constructor| | |]| | |]| | |]| | |].
      + cbn; lia.
      + vm_compute; lia.
      + vm_compute; reflexivity.
      + exact I.
      + vm_compute. repeat constructor.
      + vm_compute; reflexivity.
      + cbn; lia.
      + vm_compute; lia.
      + vm_compute; reflexivity.
      + exact I.
      + eexists _, _. vm_compute. reflexivity.
      + vm_compute; reflexivity.
    - vm_compute. reflexivity. }
  destruct H as (c & H & P). exists c. assert (Q : polite (books busy) c (Load 0)) by (vm_compute; split; [reflexivity|lia]).
  repeat (split; [first [exact H|exact I|exact Q|exact P]|]). apply (C16_polite_requests_are_served 32 0 busy c (Load 0) H I Q); vm_compute; discriminate.
Qed.
