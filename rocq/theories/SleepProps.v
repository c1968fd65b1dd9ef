(** C19: the order of the declarations and the schedule do not matter, no entry sleeps for ever. *)
From Coq Require Import List Bool Arith Lia Permutation. Import ListNotations.
From Verif Require Import SleepSpec SleepModel SleepProofs SleepSteps SleepLogic SleepEnd.

(** Declarations are written with [static] iff their identifier has internal linkage, an array is declared in front
    of its initialiser and no array gets its size from a string. *)
Record well_formed (internal : nat -> atom -> bool) (p : program) : Prop := {
  keyword_agrees : forall d x, In d p -> In x (actions d) ->
    match x with Declare a is_static | Declare_array a is_static => is_static = internal (in_unit d) a | _ => True end;
  declared_before : forall d j a, In d p -> nth_error (actions d) j = Some (Initialize_list a) ->
    exists j' b, j' < j /\ (nth_error (actions d) j' = Some (Declare a b) \/ nth_error (actions d) j' = Some (Declare_array a b));
  no_strings : forall d a, In d p -> ~ In (Initialize_string a) (actions d) }.

(** Every program, order of the queue, hash function, number of units and of threads, schedule: if the stage ends
    and no thread used a table that another one was copying or gave up, then nothing is left in the queue, all
    threads are idle, the declarations that were processed are exactly those that can be, and all others are in the
    tables, where they get reported.  Missing: arrays sized by a string, a keyword that differs from the linkage,
    faults and that the stage ends. *)
Theorem C19_finished_iff_processable_partial : forall internal hash p order units capacity number_of_threads schedule,
  well_formed internal p -> Permutation order (seq 0 (length p)) -> 0 < capacity ->
  let s := run internal hash p schedule (initial order units capacity number_of_threads) in
  ended s = true -> faultless s ->
  queue s = [] /\ (forall q, In q (threads s) -> q = Idle) /\
  Permutation (finished s ++ asleep s) order /\
  forall e d, nth_error p e = Some d ->
    (In e (finished s) <-> processable internal p d) /\ (In e (asleep s) <-> ~ processable internal p d).
Proof.
  intros internal hash p order units capacity n schedule [W1 W2 W3] PM C s E F.
  assert (ND : NoDup order) by (eapply Permutation_NoDup; [apply Permutation_sym; exact PM | apply seq_NoDup]).
  destruct (run_tables internal hash p order ND schedule _ (initial_tables hash order units capacity n C) (initial_entries order units capacity n)) as [T EN].
  fold s in T, EN.
  assert (L : logic_inv internal p s).
  { eapply run_logic; eauto using initial_tables, initial_entries, initial_logic. }
  assert (A : forall e d, nth_error p e = Some d -> In e order).
  { intros e d H. eapply Permutation_in; [apply Permutation_sym; exact PM|]. apply in_seq. split; [lia|]. apply nth_error_Some. congruence. }
  destruct (end_queue order s EN E) as [Q I]. repeat split; auto.
  - apply (Permutation_count_occ Nat.eq_dec). intros e. rewrite count_occ_app. apply (end_count order s EN E).
  - apply (end_finished internal hash p order s T EN L E A e d H).
  - apply (end_finished internal hash p order s T EN L E A e d H).
  - apply (end_finished internal hash p order s T EN L E A e d H).
  - apply (end_finished internal hash p order s T EN L E A e d H).
Qed.
Print Assumptions C19_finished_iff_processable_partial.

Lemma nodup_app : forall (a b : list nat), NoDup (a ++ b) -> NoDup a /\ NoDup b.
Proof.
  induction a as [|x a IH]; intros b H; [split; [constructor | exact H]|]. inversion H; subst. destruct (IH b) as [A B]; [assumption|].
  split; [|exact B]. constructor; [|exact A]. intros I. apply H2. apply in_or_app. auto.
Qed.

(** Two runs that end process the same declarations. *)
Theorem C19_order_does_not_matter_partial : forall internal p order1 hash1 units1 capacity1 threads1 schedule1 order2 hash2 units2 capacity2 threads2 schedule2,
  well_formed internal p -> Permutation order1 (seq 0 (length p)) -> Permutation order2 (seq 0 (length p)) -> 0 < capacity1 -> 0 < capacity2 ->
  let s1 := run internal hash1 p schedule1 (initial order1 units1 capacity1 threads1) in
  let s2 := run internal hash2 p schedule2 (initial order2 units2 capacity2 threads2) in
  ended s1 = true -> faultless s1 -> ended s2 = true -> faultless s2 ->
  Permutation (finished s1) (finished s2) /\ Permutation (asleep s1) (asleep s2).
Proof.
  intros internal p order1 hash1 units1 capacity1 threads1 schedule1 order2 hash2 units2 capacity2 threads2 schedule2 W P1 P2 C1 C2 s1 s2 E1 F1 E2 F2.
  destruct (C19_finished_iff_processable_partial internal hash1 p order1 units1 capacity1 threads1 schedule1 W P1 C1 E1 F1) as (_ & _ & A1 & B1).
  destruct (C19_finished_iff_processable_partial internal hash2 p order2 units2 capacity2 threads2 schedule2 W P2 C2 E2 F2) as (_ & _ & A2 & B2).
  fold s1 in A1, B1. fold s2 in A2, B2.
  assert (N1 : NoDup (finished s1 ++ asleep s1)) by (eapply Permutation_NoDup; [apply Permutation_sym; etransitivity; [exact A1 | exact P1] | apply seq_NoDup]).
  assert (N2 : NoDup (finished s2 ++ asleep s2)) by (eapply Permutation_NoDup; [apply Permutation_sym; etransitivity; [exact A2 | exact P2] | apply seq_NoDup]).
  assert (IN : forall e, In e (finished s1 ++ asleep s1) \/ In e (finished s2 ++ asleep s2) -> exists d, nth_error p e = Some d).
  { intros e H. assert (S : In e (seq 0 (length p))) by (destruct H as [H | H]; [eapply Permutation_in; [etransitivity; [exact A1 | exact P1] | exact H] | eapply Permutation_in; [etransitivity; [exact A2 | exact P2] | exact H]]).
    apply in_seq in S. destruct (nth_error p e) as [d|] eqn:D; [eauto|]. apply nth_error_None in D. lia. }
  split; apply NoDup_Permutation.
  - apply nodup_app in N1. apply N1.
  - apply nodup_app in N2. apply N2.
  - intros e. split; intros H.
    + destruct (IN e) as (d & D); [left; apply in_or_app; auto|]. apply (B2 e d D). apply (B1 e d D). exact H.
    + destruct (IN e) as (d & D); [right; apply in_or_app; auto|]. apply (B1 e d D). apply (B2 e d D). exact H.
  - apply nodup_app in N1. apply N1.
  - apply nodup_app in N2. apply N2.
  - intros e. split; intros H.
    + destruct (IN e) as (d & D); [left; apply in_or_app; auto|]. apply (B2 e d D). apply (B1 e d D). exact H.
    + destruct (IN e) as (d & D); [right; apply in_or_app; auto|]. apply (B1 e d D). apply (B2 e d D). exact H.
Qed.
Print Assumptions C19_order_does_not_matter_partial.

(** At every moment, every declaration is in exactly one place: in the queue, with a thread, processed or asleep;
    whatever the program and also after faults. *)
Theorem C19_no_entry_is_lost : forall internal hash p order units capacity number_of_threads schedule,
  NoDup order -> 0 < capacity ->
  let s := run internal hash p schedule (initial order units capacity number_of_threads) in
  Permutation (queue s ++ flat_map held (threads s) ++ finished s ++ asleep s) order /\
  in_flight s = length (queue s) + length (filter (fun q => match q with Idle => false | _ => true end) (threads s)).
Proof.
  intros internal hash p order units capacity n schedule ND C s.
  destruct (run_tables internal hash p order ND schedule _ (initial_tables hash order units capacity n C) (initial_entries order units capacity n)) as [T EN].
  fold s in T, EN. split.
  - apply (Permutation_count_occ Nat.eq_dec). intros e. rewrite !count_occ_app, asleep_cnt, cnt_flat_map. pose proof (ei_count _ _ EN e). lia.
  - rewrite (ei_flight _ _ EN). f_equal. induction (threads s) as [|q r IH]; [reflexivity|]. cbn [total filter]. destruct q; cbn [busy length]; rewrite IH; reflexivity.
Qed.
Print Assumptions C19_no_entry_is_lost.

(** At every moment, what is registered can be resolved. *)
Theorem C19_registered_is_resolvable_partial : forall internal hash p order units capacity number_of_threads schedule,
  well_formed internal p -> NoDup order -> 0 < capacity ->
  let s := run internal hash p schedule (initial order units capacity number_of_threads) in
  faultless s ->
  (forall u a, lookup s (declaration_space internal u a) a <> None -> resolvable internal p (Known (visible internal u a))) /\
  (forall a, lookup s Compounds a <> None -> resolvable internal p (Known (Tag a))) /\
  (forall u a, size_known s (declaration_space internal u a) a = true -> resolvable internal p (Size_known (visible internal u a))).
Proof.
  intros internal hash p order units capacity n schedule [W1 W2 W3] ND C s F.
  assert (L : logic_inv internal p s) by (eapply run_logic; eauto using initial_tables, initial_entries, initial_logic).
  split; [|split].
  - intros u a H. apply (li_facts _ _ _ L). apply (est_known internal hash). exact H.
  - intros a H. apply (li_facts _ _ _ L). exact H.
  - intros u a H. apply (li_facts _ _ _ L). apply (est_size internal hash). exact H.
Qed.
Print Assumptions C19_registered_is_resolvable_partial.

(* ------------------------------------------------------------------ *)
(** Examples: the hypotheses hold. *)

Definition plain_hash (a : atom) (q : purpose) : nat := a.
Definition in_0 := mkdeclaration 0.
(** [int x[sizeof(array)]; static struct s y = {z}; int array[] = {1, 2}; struct s {int i;}; int w = v;], [y] is 5. *)
Definition example_program : program :=
  [ in_0 [Need (Array_size 1); Declare_array 2 false];
    in_0 [Need (Compound 3); Declare 5 true; Need (Identifier 4)];
    in_0 [Declare 1 false; Initialize_list 1];
    in_0 [Define_compound 3];
    in_0 [Need (Identifier 6); Declare 7 false];
    in_0 [Declare 4 false; Need_in_list 4 (Identifier 5)] ].
Definition example_static (u : nat) (a : atom) : bool := a =? 5.

Example C19_example_well_formed : well_formed example_static example_program.
Proof.
  constructor.
  - intros d x D X. repeat (destruct D as [<- | D]; [repeat (destruct X as [<- | X]; [reflexivity || exact Logic.I|]); destruct X|]). destruct D.
  - intros d j a D X. repeat (destruct D as [<- | D]; [repeat (destruct j as [|j]; cbn in X; try discriminate; try (injection X as <-; exists 0, false; split; [lia | left; reflexivity])); destruct j; discriminate |]). destruct D.
  - intros d a D X. repeat (destruct D as [<- | D]; [repeat (destruct X as [X | X]; [discriminate|]); destruct X|]). destruct D.
Qed.

(** Three threads that take turns, tables with eight nodes. *)
Example C19_example_ends :
  let s := run example_static plain_hash example_program (concat (repeat [0; 1; 2; 0] 60)) (initial [0; 1; 2; 3; 4; 5] 1 8 3) in
  ended s = true /\ finished s <> [] /\ asleep s = [4] /\ forallb (fun q => match q with Fault _ => false | _ => true end) (threads s) = true.
Proof. vm_compute. repeat split. discriminate. Qed.

(* ------------------------------------------------------------------ *)
(** Refutations. *)

Definition no_static (u : nat) (a : atom) : bool := false.
Definition alone (k : nat) : list nat := repeat 0 k.

(** [char a[]; int x[sizeof a]; char a[] = "abc";]: nobody wakes up who waits for the size.  The whole program
    can be processed, with one thread it depends on the order. *)
Definition string_program : program :=
  [ in_0 [Declare 1 false]; in_0 [Need (Array_size 1); Declare_array 2 false]; in_0 [Declare 1 false; Initialize_string 1] ].
Theorem C19_string_size_wakes_nobody_refuted :
  (forall d, In d string_program -> processable no_static string_program d) /\
  let s1 := run no_static plain_hash string_program (alone 100) (initial [0; 1; 2] 1 256 1) in
  let s2 := run no_static plain_hash string_program (alone 100) (initial [0; 2; 1] 1 256 1) in
  (ended s1 = true /\ faultless s1 /\ asleep s1 = [1]) /\ (ended s2 = true /\ faultless s2 /\ asleep s2 = []).
Proof.
  split.
  - assert (A : resolvable no_static string_program (Known (External 1))).
    { eapply (resolve _ _ (in_0 [Declare 1 false]) [] (Declare 1 false) []); [left; reflexivity | reflexivity | left; reflexivity | intros y g []]. }
    assert (B : resolvable no_static string_program (Size_known (External 1))).
    { eapply (resolve _ _ (in_0 [Declare 1 false; Initialize_string 1]) [Declare 1 false] (Initialize_string 1) []);
        [right; right; left; reflexivity | reflexivity | left; reflexivity | intros y g [<- | []] []]. }
    intros d [<- | [<- | [<- | []]]] y g Y G; cbn in Y.
    + destruct Y as [<- | []]. destruct G.
    + destruct Y as [<- | [<- | []]]; [|destruct G]. destruct G as [<- | [<- | []]]; assumption.
    + destruct Y as [<- | [<- | []]]; destruct G.
  - vm_compute. repeat split; intros l [X | []]; discriminate.
Qed.
Print Assumptions C19_string_size_wakes_nobody_refuted.

(** [extern int a[]; int b[sizeof a]; static int a[3];]: the table is chosen by the flag of the declaration that came
    first. *)
Definition flag_program : program :=
  [ in_0 [Declare 1 false]; in_0 [Need (Array_size 1); Declare_array 2 false]; in_0 [Declare_array 1 true] ].
Definition one_static (u : nat) (a : atom) : bool := a =? 1.
Theorem C19_wrong_table_refuted :
  (forall d, In d flag_program -> processable one_static flag_program d) /\
  let s1 := run one_static plain_hash flag_program (alone 100) (initial [0; 1; 2] 1 256 1) in
  let s2 := run one_static plain_hash flag_program (alone 100) (initial [2; 0; 1] 1 256 1) in
  (ended s1 = true /\ faultless s1 /\ asleep s1 = [1]) /\ (ended s2 = true /\ faultless s2 /\ asleep s2 = []).
Proof.
  split.
  - assert (B : forall f, In f [Known (Internal 0 1); Size_known (Internal 0 1)] -> resolvable one_static flag_program f).
    { intros f F. eapply (resolve _ _ (in_0 [Declare_array 1 true]) [] (Declare_array 1 true) []); [right; right; left; reflexivity | reflexivity | exact F | intros y g []]. }
    intros d [<- | [<- | [<- | []]]] y g Y G; cbn in Y.
    + destruct Y as [<- | []]. destruct G.
    + destruct Y as [<- | [<- | []]]; [|destruct G]. apply B. exact G.
    + destruct Y as [<- | []]. destruct G.
  - vm_compute. repeat split; intros l [X | []]; discriminate.
Qed.
Print Assumptions C19_wrong_table_refuted.

(** [int array[] = {undeclared}; int x[sizeof(array)];] The initialiser has to sleep but the node for the size is
    deleted: the second declaration is parsed again and again, the stage never ends and the undeclared identifier
    is not reported. *)
Definition loop_program : program :=
  [ in_0 [Declare 1 false; Need_in_list 1 (Identifier 9); Initialize_list 1]; in_0 [Need (Array_size 1); Declare_array 2 false] ].

Lemma run_app : forall ist hash p a b s, run ist hash p (a ++ b) s = run ist hash p b (run ist hash p a s).
Proof. induction a as [|i a IH]; intros b s; [reflexivity|]. cbn [app run]. apply IH. Qed.

Lemma alone_split : forall a b, alone (a + b) = alone a ++ alone b.
Proof. intros. unfold alone. apply repeat_app. Qed.

Theorem C19_stage_never_ends_refuted : well_formed no_static loop_program /\
  forall k, ended (run no_static plain_hash loop_program (alone k) (initial [0; 1] 1 256 1)) = false.
Proof.
  split.
  { constructor.
    - intros d x [<- | [<- | []]] X; repeat (destruct X as [<- | X]; [reflexivity || exact Logic.I|]); destruct X.
    - intros d j a [<- | [<- | []]] X; repeat (destruct j as [|j]; cbn in X; try discriminate; try (injection X as <-; exists 0, false; split; [lia | left; reflexivity])); destruct j; discriminate.
    - intros d a [<- | [<- | []]] X; repeat (destruct X as [X | X]; [discriminate|]); destruct X. }
  set (s0 := initial [0; 1] 1 256 1). set (go := fun k => run no_static plain_hash loop_program (alone k) s0).
  assert (PER : go (60 + 10) = go 60) by (vm_compute; reflexivity).
  assert (FIN : forallb (fun k => negb (ended (go k))) (seq 0 70) = true) by (vm_compute; reflexivity).
  assert (STEP : forall k, 60 <= k -> go (k + 10) = go k).
  { intros k K. replace k with (60 + (k - 60)) by lia. replace (60 + (k - 60) + 10) with ((60 + 10) + (k - 60)) by lia.
    unfold go in *. rewrite (alone_split (60 + 10)), (alone_split 60 (k - 60)), !run_app, PER. reflexivity. }
  intros k. change (ended (go k) = false). induction k as [k IH] using (well_founded_induction lt_wf).
  destruct (lt_dec k 70) as [Lt | Ge].
  - rewrite forallb_forall in FIN. specialize (FIN k ltac:(apply in_seq; lia)). destruct (ended (go k)); [discriminate | reflexivity].
  - replace k with ((k - 10) + 10) by lia. rewrite STEP by lia. apply IH. lia.
Qed.
Print Assumptions C19_stage_never_ends_refuted.

(** Two threads: one enters the table between the check and the counter while the other copies it. *)
Definition many : program := map (fun a => in_0 [Declare a false]) (seq 0 130).
Theorem C19_table_is_used_while_it_grows_refuted : well_formed no_static many /\
  exists schedule, ~ faultless (run no_static plain_hash many schedule (initial (seq 0 130) 1 256 2)).
Proof.
  split.
  { constructor.
    - intros d x D X. apply in_map_iff in D. destruct D as (a & <- & _). destruct X as [<- | []]. reflexivity.
    - intros d j a D X. apply in_map_iff in D. destruct D as (b & <- & _). destruct j as [|[|j]]; discriminate.
    - intros d a D X. apply in_map_iff in D. destruct D as (b & <- & _). destruct X as [X | []]. discriminate. }
  exists ([1; 1; 1] ++ alone 1286 ++ [1]). intros F. apply (F [0]).
  assert (E : nth_error (threads (run no_static plain_hash many ([1; 1; 1] ++ alone 1286 ++ [1]) (initial (seq 0 130) 1 256 2))) 1 = Some (Fault [0])) by (vm_compute; reflexivity).
  eapply nth_error_In. exact E.
Qed.
Print Assumptions C19_table_is_used_while_it_grows_refuted.
