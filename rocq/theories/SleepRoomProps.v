(** C19 with tables that are large enough: no thread faults, whatever the schedule. *)
From Coq Require Import List Bool Arith Lia Permutation. Import ListNotations.
From Verif Require Import SleepSpec SleepModel SleepProofs SleepSteps SleepLogic SleepEnd SleepRoom SleepProps.

(** Six nodes for each action of the program and one for each declaration: 256 at the start (main.c 4533, 4889). *)
Definition large_enough (p : program) (units capacity : nat) : Prop :=
  6 * length (flat_map actions p) + length p + 4 <= capacity /\ forall d, In d p -> in_unit d < units.

Lemma room_run : forall internal hash p order units capacity number_of_threads schedule,
  well_formed internal p -> Permutation order (seq 0 (length p)) -> large_enough p units capacity ->
  let s := run internal hash p schedule (initial order units capacity number_of_threads) in
  room_inv internal hash p order units capacity s /\ tables_inv hash s /\ entries_inv order s /\ logic_inv internal p s.
Proof.
  intros internal hash p order units capacity n schedule [W1 W2 W3] PM [B U].
  assert (ND : NoDup order) by (eapply Permutation_NoDup; [apply Permutation_sym; exact PM | apply seq_NoDup]).
  assert (IN : forall e, In e order -> e < length p).
  { intros e H. pose proof (Permutation_in _ PM H) as I. apply in_seq in I. lia. }
  pose proof (facts_bound internal p) as FB. pose proof (Permutation_length PM) as PL. rewrite seq_length in PL.
  apply run_all; auto using initial_room, initial_entries, initial_logic; [lia|].
  apply initial_tables. lia.
Qed.

(** No thread ever runs into an assertion or uses a table that another one is copying. *)
Theorem C19_no_fault_with_room : forall internal hash p order units capacity number_of_threads schedule,
  well_formed internal p -> Permutation order (seq 0 (length p)) -> large_enough p units capacity ->
  faultless (run internal hash p schedule (initial order units capacity number_of_threads)).
Proof.
  intros internal hash p order units capacity n schedule W PM B.
  eapply room_faultless. apply room_run; assumption.
Qed.
Print Assumptions C19_no_fault_with_room.

(** So whenever the stage ends, exactly the declarations that can be processed have been.  Missing, compared to the
    property: larger programs, arrays sized by a string, a keyword that differs from the linkage; that the stage ends. *)
Theorem C19_finished_iff_processable_with_room_partial : forall internal hash p order units capacity number_of_threads schedule,
  well_formed internal p -> Permutation order (seq 0 (length p)) -> large_enough p units capacity ->
  let s := run internal hash p schedule (initial order units capacity number_of_threads) in
  ended s = true ->
  queue s = [] /\ (forall q, In q (threads s) -> q = Idle) /\
  Permutation (finished s ++ asleep s) order /\
  forall e d, nth_error p e = Some d ->
    (In e (finished s) <-> processable internal p d) /\ (In e (asleep s) <-> ~ processable internal p d).
Proof.
  intros internal hash p order units capacity n schedule W PM B s E.
  apply C19_finished_iff_processable_partial; auto; [destruct B; lia | apply C19_no_fault_with_room; assumption].
Qed.
Print Assumptions C19_finished_iff_processable_with_room_partial.

(** The tables of the program fit. *)
Example C19_example_fits : large_enough example_program 1 256.
Proof.
  split; [cbn; lia|]. intros d D. repeat (destruct D as [<- | D]; [cbn; lia|]). destruct D.
Qed.
