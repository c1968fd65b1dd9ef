(** C22: the container of the PDB reads back. *)
From Verif Require Import Base ArModel MsfModel MsfSpec MsfProofs.

(** Every list of streams whose page numbers fit the format: either the file is refused, because its table needs more
    than the 1011 entries there is room for, or the reader gets back the streams, after the empty 'old table'.
    The reader refuses a file whose size is not the announced number of pages, and a stream with a page that is behind
    the end or one of a free page map.  Missing for the full property: the last 4095 sizes below 4 GiB, see below. *)
Theorem C22_reads_back_partial : forall ss,
  Z.of_nat (length ss) < 2 ^ 30 -> data_pages ss < 2 ^ 31 -> Forall (fun s => len s <= 2 ^ 32 - 4096) ss ->
  (1011 < root_entries ss /\ write_msf ss = Reported) \/
  (root_entries ss <= 1011 /\ exists f, write_msf ss = Done f /\ read_msf f = Some ([] :: ss)).
Proof.
  intros ss H1 H2 H3. destruct (write_msf_cases ss H1 H2 H3) as [C1 C2].
  change (root_entries ss) with (list_pages ss).
  destruct (Z_lt_le_dec 1011 (list_pages ss)) as [L|L]; [left; split; [exact L|apply C1, L]|right; split; [exact L|]].
  destruct (C2 L) as [w [D [E _]]]. exists (file w). split; [exact E|]. exact (write_read ss (file w) H1 H2 H3 E).
Qed.
Print Assumptions C22_reads_back_partial.

(** In each page of the free page map exactly the pages behind the end of the file are marked as free. *)
Theorem C22_free_pages : forall ss f p,
  Z.of_nat (length ss) < 2 ^ 30 -> data_pages ss < 2 ^ 31 -> Forall (fun s => len s <= 2 ^ 32 - 4096) ss ->
  write_msf ss = Done f -> 0 <= p -> 4096 * (4096 * (p / 32768) + 1) < len f ->
  marked_free f p = (len f <=? 4096 * p).
Proof. exact write_marks. Qed.
Print Assumptions C22_free_pages.

(** A stream of 2^32 - 4095 bytes or more: the u32 offset wraps before it gets to the end, writing never ends. *)
Theorem C22_almost_4GiB_never_ends_refuted : forall s steps amount_of_pages w,
  2 ^ 32 - 4096 < len s -> write_stream steps amount_of_pages s 0 w = Crash.
Proof. intros. apply huge_loops; [assumption|split; [lia|reflexivity]|reflexivity]. Qed.
Print Assumptions C22_almost_4GiB_never_ends_refuted.

Definition ex_streams := [[1; 2; 3]; []; [7]].
Example msf_hypotheses : Z.of_nat (length ex_streams) < 2 ^ 30 /\ data_pages ex_streams < 2 ^ 31 /\
  Forall (fun s => len s <= 2 ^ 32 - 4096) ex_streams /\ root_entries ex_streams <= 1011.
Proof. split; [reflexivity|]. split; [reflexivity|]. split; [repeat constructor; vm_compute; discriminate|vm_compute; discriminate]. Qed.
Example msf_example : exists f, write_msf ex_streams = Done f /\ read_msf f = Some [[]; [1; 2; 3]; []; [7]].
Proof.
  destruct msf_hypotheses as [H1 [H2 [H3 H4]]].
  destruct (C22_reads_back_partial ex_streams H1 H2 H3) as [[B _]|[_ R]]; [exfalso; lia|exact R].
Qed.
