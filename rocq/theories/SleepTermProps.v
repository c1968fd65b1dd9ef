(** C19: the stage ends. *)
From Coq Require Import List Bool Arith Lia Permutation. Import ListNotations.
From Verif Require Import SleepSpec SleepModel SleepProofs SleepSteps SleepLogic SleepEnd SleepRoom SleepTerm SleepProps SleepRoomProps.

(** The operating system lets every thread run again and again. *)
Definition fair (number_of_threads : nat) (schedule : nat -> nat) : Prop :=
  forall i t, i < number_of_threads -> exists t', t <= t' /\ schedule t' = i.

(** Nothing inside of the braces of an initialiser of an array of unknown size has to be waited for
    ([C19_stage_never_ends_refuted] shows why). *)
Definition no_waiting_in_braces (p : program) : Prop := forall d a x, In d p -> ~ In (Need_in_list a x) (actions d).

Lemma run_app : forall internal hash p l l' s, run internal hash p (l ++ l') s = run internal hash p l' (run internal hash p l s).
Proof. induction l as [|i l IH]; intros l' s; [reflexivity|]. cbn [app run]. apply IH. Qed.

Lemma run_at : forall internal hash p schedule s t, run internal hash p (map schedule (seq 0 t)) s = at_time internal hash p schedule s t.
Proof.
  induction t as [|t IH]; [reflexivity|]. rewrite seq_S, map_app, run_app, IH. reflexivity.
Qed.

(** Every program whose tables fit, order, hash function, number of threads and fair schedule: the stage ends, the
    state does not change afterwards, and exactly the declarations that can be processed have been.  Missing,
    compared to the property: growing tables, arrays sized by a string, a keyword that differs from the linkage,
    initialisers that have to wait inside of their braces. *)
Theorem C19_stage_ends_partial : forall internal hash p order units capacity number_of_threads schedule,
  well_formed internal p -> no_waiting_in_braces p -> Permutation order (seq 0 (length p)) -> large_enough p units capacity ->
  0 < number_of_threads -> fair number_of_threads schedule ->
  exists t, let s := run internal hash p (map schedule (seq 0 t)) (initial order units capacity number_of_threads) in
    ended s = true /\
    (forall t', t <= t' -> run internal hash p (map schedule (seq 0 t')) (initial order units capacity number_of_threads) = s) /\
    Permutation (finished s ++ asleep s) order /\
    forall e d, nth_error p e = Some d ->
      (In e (finished s) <-> processable internal p d) /\ (In e (asleep s) <-> ~ processable internal p d).
Proof.
  intros internal hash p order units capacity n schedule W NB PM B N0 F.
  assert (ND : NoDup order) by (eapply Permutation_NoDup; [apply Permutation_sym; exact PM | apply seq_NoDup]).
  assert (IN : forall e, In e order -> e < length p).
  { intros e H. pose proof (Permutation_in _ PM H) as I. apply in_seq in I. lia. }
  pose proof (facts_bound internal p) as FB. pose proof (Permutation_length PM) as PL. rewrite seq_length in PL.
  assert (RM : 2 * length (all_facts internal p) + length order + 4 <= capacity) by (destruct B; lia).
  destruct W as [W1 W2 W3] eqn:WE. destruct B as [B1 B2] eqn:BE.
  assert (TC : length (threads (initial order units capacity n)) = n) by apply repeat_length.
  assert (GI : good internal hash p order units capacity (initial order units capacity n)) by (apply good_initial; auto).
  destruct (ends internal hash p order ND IN units capacity B2 RM W1 W2 W3 NB schedule (initial order units capacity n) GI
              ltac:(rewrite TC; exact N0) ltac:(rewrite TC; exact F) _ _ 0 (le_n _) (le_n _)) as (t & _ & En).
  exists t. cbv zeta. rewrite run_at. split; [exact En|]. split.
  - intros t' H. rewrite run_at. eapply ended_stays; eauto.
  - rewrite <- run_at in *. destruct (C19_finished_iff_processable_with_room_partial internal hash p order units capacity n (map schedule (seq 0 t))) as (_ & _ & X & Y); auto.
Qed.
Print Assumptions C19_stage_ends_partial.

(** Threads that take turns are a fair schedule, and a program meets the hypotheses: *)
Example C19_turns_are_fair : fair 3 (fun t => t mod 3).
Proof.
  intros i t H. exists (i + t * 3). split; [lia|]. rewrite Nat.mod_add by lia. apply Nat.mod_small. exact H.
Qed.

(** [int x[sizeof(array)]; static struct s y = {z}; int array[] = {1, 2}; struct s {int i;}; int w = v; int z;] *)
Definition example_without_braces : program :=
  [ in_0 [Need (Array_size 1); Declare_array 2 false];
    in_0 [Need (Compound 3); Declare 5 true; Need (Identifier 4)];
    in_0 [Declare 1 false; Initialize_list 1];
    in_0 [Define_compound 3];
    in_0 [Need (Identifier 6); Declare 7 false];
    in_0 [Declare 4 false] ].

Example C19_example_without_braces : well_formed example_static example_without_braces /\ no_waiting_in_braces example_without_braces /\
  large_enough example_without_braces 1 256 /\
  exists t, let s := run example_static plain_hash example_without_braces (map (fun t => t mod 3) (seq 0 t)) (initial [5; 0; 1; 2; 3; 4] 1 256 3) in
    ended s = true /\ asleep s = [4].
Proof.
  split; [|split; [|split; [split|]]].
  - constructor.
    + intros d x D X. repeat (destruct D as [<- | D]; [repeat (destruct X as [<- | X]; [reflexivity || exact Logic.I|]); destruct X|]). destruct D.
    + intros d j a D X. repeat (destruct D as [<- | D]; [repeat (destruct j as [|j]; cbn in X; try discriminate; try (injection X as <-; exists 0, false; split; [lia | left; reflexivity])); destruct j; discriminate |]). destruct D.
    + intros d a D X. repeat (destruct D as [<- | D]; [repeat (destruct X as [X | X]; [discriminate|]); destruct X|]). destruct D.
  - intros d a x D X. repeat (destruct D as [<- | D]; [repeat (destruct X as [X | X]; [discriminate|]); destruct X|]). destruct D.
  - cbn. lia.
  - intros d D. repeat (destruct D as [<- | D]; [cbn; lia|]). destruct D.
  - exists 200. vm_compute. auto.
Qed.
