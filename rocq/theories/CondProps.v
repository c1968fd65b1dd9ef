(** C08: of each conditional section exactly the first true group is processed. *)
From Verif Require Import Base CondModel CondSpec CondProofs.

(** Full statement: without [no_skipped_null].  Missing: files with a null directive (a [#]
    alone on its line) in a skipped group; for these it is false, see below.  [complete]
    leaves out [#if], [#ifdef] and [#elif] without a condition, which are always reported. *)
Theorem C08_first_true_group_partial : forall g, complete g -> no_skipped_null g -> preprocess (lines g) = expected g.
Proof. exact first_true. Qed.
Print Assumptions C08_first_true_group_partial.

(** Whatever is not balanced is reported: accepted files consist of sections. *)
Theorem C08_unbalanced_is_reported : forall ls, ~ (exists g, ls = lines g) -> preprocess ls = Reported.
Proof.
  intros ls N. destruct (preprocess ls) as [out| |] eqn:E; [|reflexivity|].
  - destruct N. eapply accepted_balanced, E.
  - destruct (never_crashes _ _ E).
Qed.
Print Assumptions C08_unbalanced_is_reported.

(** [#if 0], a null directive, [1], [#endif]: the skipped [1] is emitted. *)
Theorem C08_null_directive_refuted : exists g, complete g /\ expected g = Done [] /\ preprocess (lines g) = Done [Emit 1].
Proof.
  exists (Section_ 0 (If (Value false)) (NullLine (TextLine 1 Nothing)) EndifLine Nothing).
  split; [repeat split; discriminate|]. split; vm_compute; reflexivity.
Qed.
Print Assumptions C08_null_directive_refuted.

(** A nested case: [#if 0] with a section and an [#else] inside, [#elif 1], [#elif] with a
    faulty condition that is not evaluated, [#else]. *)
Definition inner : group := Section_ 0 (If (Value true)) (TextLine 1 Nothing) (ElifGroup Faulty (CommandLine 2 Nothing) (ElseGroup (TextLine 3 Nothing))) (TextLine 4 Nothing).
Definition sample : group :=
  TextLine 5 (NullLine (Section_ 0 (If (Value false)) inner (ElifGroup (Value true) (TextLine 6 (Section_ 0 (Ifdef (Some false)) inner (ElseGroup (CommandLine 7 (NullLine Nothing))) Nothing)) (ElifGroup Faulty inner (ElseGroup inner))) (TextLine 8 Nothing))).
Example C08_case : complete sample /\ no_skipped_null sample /\ preprocess (lines sample) = Done [Emit 5; Emit 6; Do 7; Emit 8].
Proof. split; [repeat split; discriminate|]. split; [repeat split|vm_compute; reflexivity]. Qed.
Example C08_unbalanced_case : preprocess [Opening 0 (If (Value true)); Else 0; Else 0; Endif 0] = Reported /\ preprocess [Text 1; Endif 0] = Reported /\ preprocess [Opening 0 (If (Value false))] = Reported.
Proof. vm_compute. auto. Qed.
