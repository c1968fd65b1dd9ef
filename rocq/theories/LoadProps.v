(** C36: however threads interleave, each file is loaded and tokenised once, and everybody who asks
    for it gets that file after it was tokenised; as long as no more files are asked for than the
    table of files has slots. *)
From Verif Require Import Base ScopeSpec LoadModel LoadSpec LoadProofs.

(** The table of files is large enough for what is asked. *)
Definition room (capacity : Z) (entry_path : nat -> nat) (cs : list choice) : Prop :=
  (exists k, 0 <= k /\ capacity = 2 ^ k) /\ Z.of_nat (length (nodup Nat.eq_dec (asked entry_path cs))) <= capacity.

(** No path is tokenised twice. *)
Theorem C36_once_partial : forall capacity hash entry_path cs, room capacity entry_path cs -> NoDup (tokenised (trace (run capacity hash entry_path cs))).
Proof. intros capacity hash entry_path cs (CP & UC). exact (i_nodup _ _ _ _ _ (run_inv capacity hash entry_path cs CP UC)). Qed.
Print Assumptions C36_once_partial.

(** Every answer is a file, and that file was tokenised, from the path asked for, before. *)
Theorem C36_complete_partial : forall capacity hash entry_path cs before t r f after, room capacity entry_path cs ->
  trace (run capacity hash entry_path cs) = before ++ Return t r f :: after ->
  exists g u, f = Some g /\ In (Tokenise u g (wanted entry_path r)) before.
Proof. intros capacity hash entry_path cs before t r f after (CP & UC). exact (i_answered _ _ _ _ _ (run_inv capacity hash entry_path cs CP UC) before t r f after). Qed.
Print Assumptions C36_complete_partial.

(** Two requests for one path are answered with one file. *)
Theorem C36_same_file_partial : forall capacity hash entry_path cs t r f u q g, room capacity entry_path cs ->
  let es := trace (run capacity hash entry_path cs) in In (Return t r f) es -> In (Return u q g) es -> wanted entry_path r = wanted entry_path q -> f = g.
Proof.
  intros capacity hash entry_path cs t r f u q g (CP & UC) es R Q W. assert (J := run_inv capacity hash entry_path cs CP UC).
  apply in_split in R as (a & b & R). apply in_split in Q as (c & d & Q).
  destruct (i_answered _ _ _ _ _ J _ _ _ _ _ R) as (x & v & -> & X). destruct (i_answered _ _ _ _ _ J _ _ _ _ _ Q) as (y & w & -> & Y).
  assert (X' : In (Tokenise v x (wanted entry_path r)) (trace (run capacity hash entry_path cs))) by (fold es; rewrite R; apply in_or_app; left; exact X).
  assert (Y' : In (Tokenise w y (wanted entry_path q)) (trace (run capacity hash entry_path cs))) by (fold es; rewrite Q; apply in_or_app; left; exact Y).
  destruct (i_tok1 _ _ _ _ _ J _ _ _ X') as (_ & (i & X2) & X3). destruct (i_tok1 _ _ _ _ _ J _ _ _ Y') as (_ & (j & Y2) & Y3).
  assert (i = j) by (apply (i_inj _ _ _ _ _ J _ _ _ _ X2 Y2); congruence). subst j. congruence.
Qed.
Print Assumptions C36_same_file_partial.

(** Waiting for another thread never ends in a deadlock: unless no request is pending, some thread
    that has one can move on.  And no thread ever follows a null pointer. *)
Theorem C36_no_deadlock_partial : forall capacity hash entry_path cs t, room capacity entry_path cs ->
  let s := run capacity hash entry_path cs in
  threads s t <> Idle -> exists u, threads s u <> Idle /\ threads (step capacity hash entry_path s u) u <> threads s u.
Proof. intros capacity hash entry_path cs t (CP & UC) s N. exact (inv_moves _ _ _ _ _ t (run_inv capacity hash entry_path cs CP UC) N). Qed.
Print Assumptions C36_no_deadlock_partial.

Theorem C36_no_fault_partial : forall capacity hash entry_path cs t, room capacity entry_path cs -> threads (run capacity hash entry_path cs) t <> Fault.
Proof. intros capacity hash entry_path cs t (CP & UC) F. assert (J := i_fact _ _ _ _ _ (run_inv capacity hash entry_path cs CP UC) t). rewrite F in J. exact J. Qed.
Print Assumptions C36_no_fault_partial.

(** Three threads race for one file, two of them through an entry of the table of system includes,
    while a fourth file hashes to the same slot. *)
Definition race : list choice :=
  [Calls 0 (Include 5); Calls 1 (Open 7); Calls 2 (Include 5); Calls 3 (Open 8)] ++
  flat_map (fun _ => [Steps 0; Steps 1; Steps 2; Steps 3]) (seq 0 20).
Example C36_case :
  room 4 (fun _ => 7%nat) race /\
  trace (run 4 (fun _ => 3) (fun _ => 7%nat) race) =
    [Call 0 (Include 5); Call 1 (Open 7); Call 2 (Include 5); Call 3 (Open 8); Tokenise 1 0 7; Return 1 (Open 7) (Some 0);
     Return 2 (Include 5) (Some 0); Tokenise 3 1 8; Return 0 (Include 5) (Some 0); Return 3 (Open 8) (Some 1)]%nat.
Proof. split; [split; [exists 2; split; [lia|reflexivity]|vm_compute; discriminate]|vm_compute; reflexivity]. Qed.

(** When more files are asked for than the table has slots, a file is loaded without being entered
    into the table (preprocess.c 2627-2652: the loop ends without a break and nothing checks that it
    did), and loading it again loads it again. *)
Theorem C36_full_table_refuted : exists capacity hash entry_path cs, (exists k, 0 <= k /\ capacity = 2 ^ k) /\ ~ NoDup (tokenised (trace (run capacity hash entry_path cs))).
Proof.
  exists 2, (fun _ => 0), (fun p => p), (flat_map (fun p => Calls 0 (Open p) :: repeat (Steps 0) 20) [1; 2; 3; 3]%nat). split; [exists 1; split; [lia|reflexivity]|].
  assert (E : tokenised (trace (run 2 (fun _ => 0) (fun p => p) (flat_map (fun p => Calls 0 (Open p) :: repeat (Steps 0) 20) [1; 2; 3; 3]%nat))) = [1; 2; 3; 3]%nat) by (vm_compute; reflexivity).
  rewrite E. intro N. inversion N as [|? ? _ N1]. inversion N1 as [|? ? _ N2]. inversion N2 as [|? ? N3 _]. apply N3. left. reflexivity.
Qed.
Print Assumptions C36_full_table_refuted.
