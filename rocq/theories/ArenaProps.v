(** C29: arena allocations never overlap. *)
From Verif Require Import Base UtilModel UtilSpec UtilProofs ArenaModel ArenaSpec ArenaProofs.

(** The reservation is page-aligned and lies in the address space; the growth function stays sane. *)
Definition good_base (b : Z) : Prop := 0 < b < 2 ^ 61 /\ (4096 | b).
Definition good_growth (f : Z -> Z) : Prop := forall x, 0 <= x <= 2 ^ 40 -> 0 <= f x < 2 ^ 62.

(** After every history of operations on any number of arenas all blocks the callers own
    are pairwise disjoint, also across arenas. *)
Theorem C29_blocks_disjoint : forall b f ops w, good_base b -> good_growth f -> Forall sane ops ->
  run b f ops start = Done w -> ForallOrdPairs disjoint (all_blocks w).
Proof.
  intros b f ops w B F S E. apply (inv_disjoint b B). eapply (run_inv b f B F ops start); eauto. apply start_inv.
Qed.
Print Assumptions C29_blocks_disjoint.

(** They are aligned as requested and inside of the committed memory of their arena. *)
Theorem C29_blocks_aligned_and_committed : forall b f ops w, good_base b -> good_growth f -> Forall sane ops ->
  run b f ops start = Done w ->
  forall s x, In s (slots w) -> In x (owned s) -> (alignment x | address x) /\ within_committed s x.
Proof.
  intros b f ops w B F S E. apply (inv_blocks b B). eapply (run_inv b f B F ops start); eauto. apply start_inv.
Qed.
Print Assumptions C29_blocks_aligned_and_committed.

(** A temporary-memory scope gives back exactly what was allocated inside of it: the owned
    blocks and the bump pointer are those of its begin (where an arena that had no memory
    yet was created). *)
Theorem C29_temporary_memory : forall b f ops w i l w' s, good_base b -> good_growth f -> Forall sane ops ->
  run b f ops start = Done w -> nth_error (slots w) i = Some s -> nested i l -> Forall sane l ->
  run b f (Begin i :: l ++ [End i]) w = Done w' ->
  exists s', nth_error (slots w') i = Some s' /\ owned s' = owned s /\ temps s' = temps s /\
    (0 < reserved (arena_of s) -> current (arena_of s') = current (arena_of s)).
Proof.
  intros b f ops w i l w' s B F S E N NE SL R.
  assert (I : inv b w) by (eapply (run_inv b f B F ops start); eauto; apply start_inv).
  destruct (scope_ok b f B F w i l w' s I SL NE N R) as (s' & g1 & a1 & N' & EN & C & O & T).
  exists s'. repeat split; auto. intros RP. rewrite C. unfold ensure in EN.
  replace (reserved (arena_of s) =? 0) with false in EN by lia. injection EN as _ <-. reflexivity.
Qed.
Print Assumptions C29_temporary_memory.

(** No assertion fires: a request that fits is served, an open temporary memory can be ended. *)
Theorem C29_push_succeeds : forall b f ops w i s size al, good_base b -> good_growth f -> Forall sane ops ->
  run b f ops start = Done w -> nth_error (slots w) i = Some s -> 0 < reserved (arena_of s) ->
  0 <= size < 2 ^ 40 -> power_of_two al -> al <= 4096 ->
  end_of_committed_memory (arena_of s) - base (arena_of s) + size + 4095 <= reserved (arena_of s) ->
  exists w', step b f w (Push i size al) = Done w'.
Proof.
  intros b f ops w i s sz al B F S E N R SZ P L FIT.
  eapply (push_succeeds b f B F); eauto; [eapply (run_inv b f B F ops start); eauto; apply start_inv|lia].
Qed.
Print Assumptions C29_push_succeeds.
Theorem C29_end_succeeds : forall b f ops w i s t rest, good_base b -> good_growth f -> Forall sane ops ->
  run b f ops start = Done w -> nth_error (slots w) i = Some s -> temps s = t :: rest ->
  exists w', step b f w (End i) = Done w'.
Proof.
  intros b f ops w i s t rest B F S E N T.
  eapply (end_succeeds b f); eauto. eapply (run_inv b f B F ops start); eauto. apply start_inv.
Qed.
Print Assumptions C29_end_succeeds.

(** A history meeting all hypotheses: two arenas, growth, alignment, a nested scope. *)
Definition history : list op :=
  [Create (4 * 2 ^ 30) 0; Declare_zero; Push 0 100 8; Push 1 3 1; Begin 0; Push 0 (3 * 2 ^ 20) 16; Begin 0; Push 0 5 4;
   Solidify 0; Push 1 64 32; End 0; Zero_align 0 64; Push 0 1 1; Align 1 4096; Push 1 8 8].
Example C29_ex : Forall sane history /\ good_base (2 ^ 40) /\ good_growth (fun x => 2 * x) /\
  exists w, run (2 ^ 40) (fun x => 2 * x) history start = Done w /\ length (all_blocks w) = 5%nat.
Proof.
  split; [|split; [|split]].
  - repeat (constructor; [cbn; repeat split; try lia; exists 1048576; reflexivity|]). constructor.
  - split; [lia|]. exists (2 ^ 28). reflexivity.
  - intros x R. lia.
  - eexists. split; vm_compute; reflexivity.
Qed.
Example C29_nested_ex : nested 0 [Push 0 (3 * 2 ^ 20) 16; Begin 0; Push 0 5 4; Solidify 0; Push 1 64 32].
Proof.
  apply nested_other; [reflexivity|].
  apply (nested_solidify 0 [Push 0 5 4] [Push 1 64 32]); apply nested_other; try reflexivity; apply nested_nil.
Qed.
